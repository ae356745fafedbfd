(** * Model of the life of a follower's requests: the map by key, the map by log index, and the blocks.
    Source: src/lib/replication/repl_dev/raft_repl_dev.cpp:1241-1295 (applier_create_req), :1683-1701
    (handle_rollback), :1703-1754 (handle_commit), :1777-1825 (handle_error), :2614-2696 (gc_repl_reqs), :2899-2933 (clear_chunk_req);
    raft_state_machine.cpp:55-185 (localize_journal_entry_prepare, _finish), :228-275 (commit_ext, rollback_ext),
    :308-338 (the map by index); log_store/repl_log_store.cpp:9-95 (append, write_at, end_of_append_batch).

    Every step is atomic (the races inside the delivery of data are in ReplDataModel).  All requests have
    linked data; the proposer's own requests, quiescing, snapshots and restarts are left out.  NuRaft
    (not in the repository) rolls the entries back from the last one before it overwrites one of them,
    and commits entries in order, after they are flushed. *)
From Coq Require Import NArith Arith List Bool.
Import ListNotations.

(** A key stands for the triple of server, term and data sequence number. *)
Notation key := N (only parsing).
Notation rid := nat (only parsing).

Record st := St {
  s_key : key -> option rid;      (* m_repl_key_req_map *)
  s_lsn : nat -> option rid;      (* m_lsn_req_map *)
  s_log : nat -> option key;      (* the entry at an index; None: not an application entry *)
  s_len : nat; s_flushed : nat; s_done : nat;   (* last index in the log, flushed, committed *)
  s_rkey : rid -> key; s_blks : rid -> bool; s_at : rid -> nat; s_fl : rid -> bool; (* per request: key, BLK_ALLOCATED, lsn (0: none), LOG_FLUSHED *)
  s_next : rid }.

Definition init : st := St (fun _ => None) (fun _ => None) (fun _ => None) 0 0 0 (fun _ => 0%N) (fun _ => false) (fun _ => 0) (fun _ => false) 0.

Inductive out := OAlloc (r : rid) | OFree (r : rid) | OCommit (lsn : nat) (k : key) (r : rid).
Definition res : Type := option (st * list out).   (* None: a failed assertion or a null request *)

Definition upd {A} (f : nat -> A) (x : nat) (v : A) : nat -> A := fun y => if y =? x then v else f y.
Definition updk {A} (f : key -> A) (x : key) (v : A) : key -> A := fun y => if (y =? x)%N then v else f y.

(** applier_create_req: [ok] says whether the allocator has room. *)
Definition fresh (s : st) (k : key) : st * rid :=
  match s_key s k with
  | Some r => (s, r)
  | None =>
      let r := s_next s in
      (St (updk (s_key s) k (Some r)) (s_lsn s) (s_log s) (s_len s) (s_flushed s) (s_done s)
          (upd (s_rkey s) r k) (upd (s_blks s) r false) (upd (s_at s) r 0) (upd (s_fl s) r false) (S r), r)
  end.
Definition set_blks (s : st) (r : rid) (b : bool) : st :=
  St (s_key s) (s_lsn s) (s_log s) (s_len s) (s_flushed s) (s_done s) (s_rkey s) (upd (s_blks s) r b) (s_at s) (s_fl s) (s_next s).
Definition receive (s : st) (k : key) (ok : bool) : st * list out * rid :=
  let (s, r) := fresh s k in
  if s_blks s r then (s, [], r)
  else if ok then (set_blks s r true, [OAlloc r], r)
  else (s, [], r).

(** append, write_at: localize_journal_entry_finish, then link_lsn_to_req, whose insert keeps an entry
    that is there. *)
Definition put_log (s : st) (e : option key) : st :=
  St (s_key s) (s_lsn s) (upd (s_log s) (S (s_len s)) e) (S (s_len s)) (s_flushed s) (s_done s) (s_rkey s) (s_blks s) (s_at s) (s_fl s) (s_next s).
Definition link (s : st) (r : rid) (i : nat) : st :=
  St (s_key s) (match s_lsn s i with Some _ => s_lsn s | None => upd (s_lsn s) i (Some r) end) (s_log s) (s_len s) (s_flushed s) (s_done s)
     (s_rkey s) (s_blks s) (upd (s_at s) r i) (s_fl s) (s_next s).
Definition append (s : st) (e : option key) (ok : bool) : res :=
  match e with
  | None => Some (put_log s None, [])
  | Some k =>
      let '(s, o, r) := receive s k ok in
      if s_blks s r then Some (link (put_log s (Some k)) r (S (s_len s)), o) else None
  end.

(** end_of_append_batch. *)
Definition mark (s : st) (fl : rid -> bool) (i : nat) : rid -> bool :=
  match s_lsn s i with Some r => upd fl r true | None => fl end.
Definition flush (s : st) : st :=
  St (s_key s) (s_lsn s) (s_log s) (s_len s) (s_len s) (s_done s) (s_rkey s) (s_blks s) (s_at s)
     (fold_left (mark s) (seq (S (s_flushed s)) (s_len s - s_flushed s)) (s_fl s)) (s_next s).

(** unlink_lsn_to_req: erase_if_equal. *)
Definition unlink (s : st) (r : rid) : nat -> option rid :=
  match s_lsn s (s_at s r) with
  | Some r' => if r' =? r then upd (s_lsn s) (s_at s r) None else s_lsn s
  | None => s_lsn s
  end.
(** Off both maps, without its blocks. *)
Definition forget (s : st) (r : rid) : st :=
  St (updk (s_key s) (s_rkey s r) None) (unlink s r) (s_log s) (s_len s) (s_flushed s) (s_done s)
     (s_rkey s) (upd (s_blks s) r false) (s_at s) (s_fl s) (s_next s).
Definition freed (s : st) (r : rid) : list out := if s_blks s r then [OFree r] else [].

(** rollback_ext for the last entry, and the entry is gone. *)
Definition drop (s : st) : st :=
  St (s_key s) (s_lsn s) (s_log s) (s_len s - 1) (Nat.min (s_flushed s) (s_len s - 1)) (s_done s) (s_rkey s) (s_blks s) (s_at s) (s_fl s) (s_next s).
Definition rollback_last (s : st) : st * list out :=
  match s_log s (s_len s) with
  | None => (drop s, [])
  | Some _ =>
      match s_lsn s (s_len s) with
      | None => (drop s, [])
      | Some r => (drop (forget s r), freed s r)
      end
  end.
Fixpoint rollback (n : nat) (s : st) : st * list out :=
  match n with
  | O => (s, [])
  | S n => let (s, o) := rollback_last s in let (s', o') := rollback n s in (s', o ++ o')
  end.

(** commit_ext and handle_commit. *)
Definition commit (s : st) : res :=
  let i := S (s_done s) in
  let up s := St (s_key s) (s_lsn s) (s_log s) (s_len s) (s_flushed s) i (s_rkey s) (s_blks s) (s_at s) (s_fl s) (s_next s) in
  match s_log s i with
  | None => Some (up s, [])
  | Some _ =>
      match s_lsn s i with
      | None => None
      | Some r => Some (up (forget s r), [OCommit (s_at s r) (s_rkey s r) r])
      end
  end.

(** handle_error takes the request off the map by key only. *)
Definition unkey (s : st) (r : rid) : st :=
  St (updk (s_key s) (s_rkey s r) None) (s_lsn s) (s_log s) (s_len s) (s_flushed s) (s_done s)
     (s_rkey s) (upd (s_blks s) r false) (s_at s) (s_fl s) (s_next s).
Definition error (s : st) (k : key) : st * list out :=
  match s_key s k with None => (s, []) | Some r => (unkey s r, freed s r) end.
(** gc_repl_reqs for one request that it finds expired. *)
Definition collect (s : st) (k : key) : st * list out :=
  match s_key s k with
  | None => (s, [])
  | Some r => if s_fl s r then (s, []) else (unkey s r, freed s r)
  end.

(** :2899-2933 clear_chunk_req, for the keys whose blocks are in the chunk. *)
Fixpoint clear (s : st) (l : list key) : st * list out :=
  match l with
  | [] => (s, [])
  | k :: l => let (s, o) := error s k in let (s', o') := clear s l in (s', o ++ o')
  end.

Inductive ev :=
| Receive (k : key) (ok : bool)         (* data pushed, or an entry localized before it is appended *)
| Append (e : option key) (ok : bool)
| Flush
| Overwrite (n : nat)                   (* keep [n] entries *)
| Commit
| Error (k : key)
| Collect (k : key)
| Clear (l : list key).                 (* a chunk is given up for lack of space *)

Definition step (s : st) (e : ev) : res :=
  match e with
  | Receive k ok => let '(s, o, _) := receive s k ok in Some (s, o)
  | Append e ok => append s e ok
  | Flush => Some (flush s, [])
  | Overwrite n => Some (rollback (s_len s - n) s)
  | Commit => commit s
  | Error k => Some (error s k)
  | Collect k => Some (collect s k)
  | Clear l => Some (clear s l)
  end.
Fixpoint run (s : st) (l : list ev) : res :=
  match l with
  | [] => Some (s, [])
  | e :: l =>
      match step s e with
      | None => None
      | Some (s, o) => match run s l with None => None | Some (s', o') => Some (s', o ++ o') end
      end
  end.
