(** * Model of commit positions, checkpoints and log replay of a replica.
    Source: src/lib/replication/repl_dev/raft_repl_dev.cpp, raft_state_machine.cpp,
    solo_repl_dev.cpp, service/raft_repl_service.cpp, generic_repl_svc.cpp,
    src/lib/checkpoint/cp_mgr.cpp, log_store/repl_log_store.cpp.
    A write is its lsn.  What committing it changes (blocks, index, the application's own
    state) belongs to the checkpoint that is current when the listener is called and becomes
    durable, all at once, when the consumers of that checkpoint have flushed; a crash before
    that leaves the previous checkpoint.  One thread commits, one takes checkpoints, one saves
    the commit position; their steps interleave.  The log entries themselves are on the device
    (LogDevProperties). *)
From Coq Require Import ZArith List Bool.
Import ListNotations.
Open Scope Z_scope.

Inductive kind := Raft | Solo.

(** [log]: last lsn in the log; [tr]: lsns up to it were compacted away; [commit]:
    m_commit_upto_lsn (raft_repl_dev.h:200), m_commit_upto (solo_repl_dev.h:49); [nxt]: the
    next lsn to be committed; [mid]: its commit has made the first of two steps; [cur], [old], [dur]: writes whose
    effects are in the current checkpoint, in the one being flushed, durable; [ph]: the
    checkpoint being flushed: the lsn kept in its context, whether the other consumers have
    flushed, whether the replication service has; [ck], [dc]: checkpoint_lsn and
    durable_commit_lsn in the superblock; [ld]: lsn loaded by flush_durable_commit_lsn and not
    yet stored; [base]: lsns up to it were not handed to the state machine at the last start; [lim]:
    m_truncation_upper_limit (raft_repl_dev.h:206), not persisted.  Baseline resync: [snap]:
    last_snapshot_lsn in the superblock; [rcv]: the snapshot under way, which the raft library
    records and asks for again after a crash; [rph]: its last object has come (1), a checkpoint
    has started since (2) and ended (3), the log has been compacted (4). *)
Record st := St { log : Z; tr : Z; commit : Z; nxt : Z; mid : bool; cur : list Z; old : list Z; dur : list Z;
                  ph : option (Z * bool * bool); ck : Z; dc : Z; ld : option Z; base : Z; lim : Z;
                  snap : Z; rcv : option Z; rph : nat }.

(** A new replica.  Raft: lsns start at 1 and the superblock is zero.  Solo: lsns start at 0
    (log_store.cpp:36-46), m_commit_upto is -1 (solo_repl_dev.h:49), and solo_repl_dev.cpp:31-38
    does not set durable_commit_lsn, which superblk_handler.hpp:83 leaves zero. *)
Definition first (k : kind) : Z := match k with Raft => 1 | Solo => 0 end.
Definition init (k : kind) : st :=
  match k with
  | Raft => St 0 0 0 1 false [] [] [] None 0 0 None 0 0 0 None 0
  | Solo => St (-1) (-1) (-1) 0 false [] [] [] None (-1) 0 None (-1) 0 0 None 0
  end.

Inductive ev :=
| Journal     (* an entry is appended and flushed *)
| Step1 | Step2 (* the two steps of a commit *)
| Switch | FlushOthers | Seal | Finish (* a checkpoint *)
| LoadDc | StoreDc (* flush_durable_commit_lsn *)
| Boundary (upto : Z) (* an entry that moves the truncation boundary is applied *)
| Compact (upto : Z)
| SnapHead (i : Z) | SnapLast | SnapCompact | SnapApply (* a snapshot sent by the leader *)
| Reboot.
Inductive res := Next (s : st) | NotNow | Crash.

Fixpoint range (from : Z) (n : nat) : list Z := match n with O => [] | S m => from :: range (from + 1) m end.
(** The lsns of ([a], [b]]. *)
Definition between (a b : Z) : list Z := range (a + 1) (Z.to_nat (b - a)).

Definition is_some (o : option Z) : bool := match o with Some _ => true | None => false end.

Definition step (k : kind) (s : st) (e : ev) : res :=
  match e with
  | Journal => Next (St (log s + 1) (tr s) (commit s) (nxt s) (mid s) (cur s) (old s) (dur s) (ph s) (ck s) (dc s) (ld s) (base s) (lim s) (snap s) (rcv s) (rph s))
  | Step1 =>
    if mid s || (log s <? nxt s) then NotNow
    else match k with
         | Raft =>
           (* raft_state_machine.cpp:204-221 commit_ext, raft_repl_dev.cpp:1705-1734: the request
              is looked up and followed, and the listener is called *)
           (* commit_ext :207-212: entries that the snapshot has are skipped.  The raft library
              commits nothing beyond the snapshot it is receiving, nor while it compacts. *)
           if Nat.eqb (rph s) 4 then NotNow
           else if nxt s <=? snap s then
             Next (St (log s) (tr s) (commit s) (nxt s + 1) false (cur s) (old s) (dur s) (ph s) (ck s) (dc s) (ld s) (base s) (lim s) (snap s) (rcv s) (rph s))
           else if is_some (rcv s) then NotNow
           else if nxt s <=? base s then Crash
           else Next (St (log s) (tr s) (commit s) (nxt s) true (cur s ++ [nxt s]) (old s) (dur s) (ph s) (ck s) (dc s) (ld s) (base s) (lim s) (snap s) (rcv s) (rph s))
         | Solo =>
           (* solo_repl_dev.cpp:85-86: the position goes first *)
           Next (St (log s) (tr s) (Z.max (commit s) (nxt s)) (nxt s) true (cur s) (old s) (dur s) (ph s) (ck s) (dc s) (ld s) (base s) (lim s) (snap s) (rcv s) (rph s))
         end
  | Step2 =>
    if mid s then
      match k with
      | Raft => (* raft_repl_dev.cpp:1736-1741 *)
        Next (St (log s) (tr s) (nxt s) (nxt s + 1) false (cur s) (old s) (dur s) (ph s) (ck s) (dc s) (ld s) (base s) (lim s) (snap s) (rcv s) (rph s))
      | Solo => (* solo_repl_dev.cpp:88-91 *)
        Next (St (log s) (tr s) (commit s) (nxt s + 1) false (cur s ++ [nxt s]) (old s) (dur s) (ph s) (ck s) (dc s) (ld s) (base s) (lim s) (snap s) (rcv s) (rph s))
      end
    else NotNow
  | Switch =>
    (* cp_mgr.cpp:223-246; the context: raft_repl_service.cpp:782-799, raft_repl_dev.cpp:2598-2610 *)
    match ph s with
    | None => Next (St (log s) (tr s) (commit s) (nxt s) (mid s) [] (cur s) (dur s) (Some (commit s, false, false)) (ck s) (dc s) (ld s) (base s) (lim s) (snap s) (rcv s)
                         (if Nat.eqb (rph s) 1 then 2%nat else rph s))
    | Some _ => NotNow
    end
  | FlushOthers =>
    (* cp_mgr.cpp:272-283 *)
    match ph s with
    | Some (c, false, x) => Next (St (log s) (tr s) (commit s) (nxt s) (mid s) (cur s) [] (dur s ++ old s) (Some (c, true, x)) (ck s) (dc s) (ld s) (base s) (lim s) (snap s) (rcv s) (rph s))
    | _ => NotNow
    end
  | Seal =>
    (* cp_mgr.cpp:284-290: after the others *)
    match ph s with
    | Some (c, true, false) =>
      match k with
      | Raft => (* raft_repl_dev.cpp:2568-2596 *)
        Next (St (log s) (tr s) (commit s) (nxt s) (mid s) (cur s) (old s) (dur s) (Some (c, true, true)) c (Z.max c (dc s)) (ld s) (base s) (lim s) (snap s) (rcv s) (rph s))
      | Solo => (* solo_repl_dev.cpp:253-263: the position of this moment *)
        Next (St (log s) (tr s) (commit s) (nxt s) (mid s) (cur s) (old s) (dur s) (Some (c, true, true)) (commit s) (commit s) (ld s) (base s) (lim s) (snap s) (rcv s) (rph s))
      end
    | _ => NotNow
    end
  | Finish =>
    match ph s with
    | Some (_, true, true) => Next (St (log s) (tr s) (commit s) (nxt s) (mid s) (cur s) (old s) (dur s) None (ck s) (dc s) (ld s) (base s) (lim s) (snap s) (rcv s)
                                       (if Nat.eqb (rph s) 2 then 3%nat else rph s))
    | _ => NotNow
    end
  | LoadDc => (* raft_repl_dev.cpp:2480-2482 *)
    match k, ld s with
    | Raft, None => Next (St (log s) (tr s) (commit s) (nxt s) (mid s) (cur s) (old s) (dur s) (ph s) (ck s) (dc s) (Some (commit s)) (base s) (lim s) (snap s) (rcv s) (rph s))
    | _, _ => NotNow
    end
  | StoreDc => (* raft_repl_dev.cpp:2491-2493 *)
    match ld s with
    | Some l => Next (St (log s) (tr s) (commit s) (nxt s) (mid s) (cur s) (old s) (dur s) (ph s) (ck s) l None (base s) (lim s) (snap s) (rcv s) (rph s))
    | None => NotNow
    end
  | Boundary b =>
    (* raft_repl_dev.cpp:1921-1949 update_truncation_boundary, from a log entry (:1723) or from
       trigger_snapshot_creation (:919); the value proposed is any *)
    match k with
    | Raft => let e := Z.min b (ck s) in
              Next (St (log s) (tr s) (commit s) (nxt s) (mid s) (cur s) (old s) (dur s) (ph s) (ck s) (dc s) (ld s) (base s)
                       (if e <=? lim s then lim s else e) (snap s) (rcv s) (rph s))
    | Solo => NotNow
    end
  | Compact u =>
    (* repl_log_store.cpp:117-125, log_store.cpp:208-216: what nuraft or trigger_snapshot_creation
       asks for is any, and limited; during a resync it is committed *)
    match k with
    | Raft => let e := Z.min u (lim s) in
              if Nat.eqb (rph s) 4 || (is_some (rcv s) && (nxt s <=? u)) then NotNow
              else Next (St (log s) (if e <=? tr s then tr s else e) (commit s) (nxt s) (mid s) (cur s) (old s) (dur s) (ph s) (ck s) (dc s) (ld s) (base s) (lim s) (snap s) (rcv s) (rph s))
    | Solo => NotNow
    end
  | SnapHead i =>
    (* raft_repl_dev.cpp:2811-2845 save_snp_resync_data, the first message of a snapshot.  The
       raft library takes snapshots of entries it has not committed.  From here on the
       application may drop what it has up to [i]. *)
    match k with
    | Raft => if (nxt s <=? i) && negb (Nat.eqb (rph s) 4)
              then Next (St (log s) (tr s) (commit s) (nxt s) (mid s) (filter (Z.ltb i) (cur s)) (filter (Z.ltb i) (old s)) (filter (Z.ltb i) (dur s))
                            (ph s) (ck s) (dc s) (ld s) (base s) (lim s) i (Some i) 0)
              else NotNow
    | Solo => NotNow
    end
  | SnapLast =>
    (* raft_state_machine.cpp:396-414 save_logical_snp_obj, the last object: the application
       has the state up to the snapshot, and a checkpoint is waited for *)
    match k, rcv s with
    | Raft, Some i => Next (St (log s) (tr s) (commit s) (nxt s) (mid s) (cur s ++ between 0 i) (old s) (dur s) (ph s) (ck s) (dc s) (ld s) (base s) i (snap s) (rcv s) 1)
    | _, _ => NotNow
    end
  | SnapCompact =>
    (* then the raft library compacts its log, with commits paused; repl_log_store.cpp:117-125,
       home_raft_log_store.cpp:359-374 *)
    match k, rcv s with
    | Raft, Some i =>
        if Nat.eqb (rph s) 3 && negb (mid s) then
          let e := Z.min i (lim s) in
          Next (St (Z.max (log s) e) (if e <=? tr s then tr s else e) (commit s) (nxt s) (mid s) (cur s) (old s) (dur s) (ph s) (ck s) (dc s) (ld s) (base s) (lim s) (snap s) None 4)
        else NotNow
    | _, _ => NotNow
    end
  | SnapApply =>
    (* raft_state_machine.cpp:428-439 apply_snapshot *)
    if Nat.eqb (rph s) 4 then
      Next (St (log s) (tr s) (snap s) (snap s + 1) (mid s) (cur s) (old s) (dur s) (ph s) (ck s) (dc s) (ld s) (base s) (lim s) (snap s) (rcv s) 0)
    else NotNow
  | Reboot =>
    (* Raft: raft_repl_dev.cpp:50-54 and on_log_found :2700-2797: entries up to checkpoint_lsn
       or last_snapshot_lsn are skipped, those up to durable_commit_lsn are committed, later ones are handed to the
       state machine, which goes on after the position or the start of the log.  Solo: solo_repl_dev.cpp:30 and on_log_found :174-228. *)
    match k with
    | Raft => Next (St (log s) (tr s) (dc s) (Z.max (dc s) (tr s) + 1) false (between (Z.max (Z.max (ck s) (tr s)) (snap s)) (Z.min (dc s) (log s))) [] (dur s) None (ck s) (dc s) None (ck s) 0 (snap s) (rcv s) 0%nat)
    | Solo => Next (St (log s) (tr s) (Z.max (dc s) (log s)) (log s + 1) false (between (Z.max (dc s) (tr s)) (log s)) [] (dur s) None (ck s) (dc s) None (base s) (lim s) (snap s) (rcv s) (rph s))
    end
  end.

Inductive reach (k : kind) (allowed : st -> ev -> Prop) : st -> Prop :=
| reach_init : reach k allowed (init k)
| reach_step : forall s e s', reach k allowed s -> allowed s e -> step k s e = Next s' -> reach k allowed s'.
(** For examples. *)
Fixpoint play (k : kind) (s : st) (l : list ev) : res :=
  match l with
  | [] => Next s
  | e :: t => match step k s e with Next s' => play k s' t | r => r end
  end.
