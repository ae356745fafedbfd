(** Quiescing a replica: init_req_ctx against quiesce_reqs and
    resume_accepting_reqs (lib/replication/repl_dev/raft_repl_dev.cpp:2874-2897,
    2935-2951, raft_repl_dev.h:522-524, common.h:107-131).

    A step is one access to a shared variable.  Any number of requests come and go;
    each of the callers of quiesce_reqs is a thread with a queue of stores that
    other threads do not see yet.  The store of the flag is a release store and the
    load of the count an acquire load; neither C++ nor x86 orders a load after an
    earlier store to another variable, so the load may be done while the store is
    queued.  [mode] says what is assumed of that:
    [SC]    a store is seen by all at once;
    [TSO]   a store is queued, and seen at a later step (x86, release stores);
    [Fence] the same, and the queue is empty before the count is looked at (what a
            seq_cst store would give).
    The requests' own accesses to the count are atomic read-modify-writes. *)
From Coq Require Import List Arith Lia Bool.
Import ListNotations.

Inductive mode := SC | TSO | Fence.

(** init_req_ctx (raft_repl_dev.cpp:2943-2950): [Idle]; [Counted] after the
    increment; [Passed] after the flag was seen down; [Refused] after it was seen
    up; [Made] after rreq->init, which allocates the blocks. *)
Inductive rpc := Idle | Counted | Passed | Refused | Made.

(** quiesce_reqs (:2874-2889): [Out]; [Waiting] in the loop; [Quiet] after it has
    returned. *)
Inductive qpc := Out | Waiting | Quiet.

Record qs := Qs { at_q : qpc; queue : list bool }.
(** m_in_quience, m_pending_init_req_num. *)
Record st := St { flag : bool; cnt : nat; reqs : list rpc; callers : list qs }.

Inductive ev :=
| Enter (i : nat)                 (* the constructor of init_req_counter *)
| Check (i : nat) (ok : bool)     (* is_in_quience; ok: the flag is down *)
| Init (i : nat)                  (* rreq->init *)
| Leave (i : nat)                 (* the destructor of init_req_counter *)
| Store (j : nat)                 (* quiesce_reqs: the flag is set *)
| Look (j : nat) (ok : bool)      (* the count is loaded; ok: it is 0, the call returns *)
| Resume (j : nat)                (* resume_accepting_reqs *)
| Drain (j : nat).                (* the oldest queued store of j is seen by all *)

Fixpoint upd {A} (l : list A) (i : nat) (a : A) : list A :=
  match l, i with
  | [], _ => []
  | _ :: l, O => a :: l
  | b :: l, S i => b :: upd l i a
  end.

(** A store to the flag. *)
Definition put (m : mode) (v : bool) (j : nat) (p : qpc) (q : qs) (s : st) : st :=
  match m with
  | SC => St v (cnt s) (reqs s) (upd (callers s) j (Qs p (queue q)))
  | _ => St (flag s) (cnt s) (reqs s) (upd (callers s) j (Qs p (queue q ++ [v])))
  end.

Definition may_look (m : mode) (q : qs) : bool :=
  match m, queue q with Fence, _ :: _ => false | _, _ => true end.

Definition step (m : mode) (s : st) (e : ev) : option st :=
  match e with
  | Enter i =>
      match nth_error (reqs s) i with
      | Some Idle => Some (St (flag s) (S (cnt s)) (upd (reqs s) i Counted) (callers s))
      | _ => None
      end
  | Check i ok =>
      match nth_error (reqs s) i with
      | Some Counted =>
          if eqb ok (negb (flag s))
          then Some (St (flag s) (cnt s) (upd (reqs s) i (if ok then Passed else Refused)) (callers s)) else None
      | _ => None
      end
  | Init i =>
      match nth_error (reqs s) i with
      | Some Passed => Some (St (flag s) (cnt s) (upd (reqs s) i Made) (callers s))
      | _ => None
      end
  | Leave i =>
      match nth_error (reqs s) i with
      | Some Refused | Some Made => Some (St (flag s) (pred (cnt s)) (upd (reqs s) i Idle) (callers s))
      | _ => None
      end
  | Store j =>
      match nth_error (callers s) j with
      | Some q => match at_q q with Out => Some (put m true j Waiting q s) | _ => None end
      | None => None
      end
  | Look j ok =>
      match nth_error (callers s) j with
      | Some q =>
          match at_q q with
          | Waiting =>
              if may_look m q && eqb ok (cnt s =? 0)
              then Some (St (flag s) (cnt s) (reqs s) (upd (callers s) j (Qs (if ok then Quiet else Waiting) (queue q))))
              else None
          | _ => None
          end
      | None => None
      end
  | Resume j =>
      match nth_error (callers s) j with
      | Some q => match at_q q with Quiet => Some (put m false j Out q s) | _ => None end
      | None => None
      end
  | Drain j =>
      match nth_error (callers s) j with
      | Some q =>
          match queue q with
          | v :: r => Some (St v (cnt s) (reqs s) (upd (callers s) j (Qs (at_q q) r)))
          | [] => None
          end
      | None => None
      end
  end.

Fixpoint run (m : mode) (s : st) (l : list ev) : option st :=
  match l with
  | [] => Some s
  | e :: l => match step m s e with Some s' => run m s' l | None => None end
  end.

(** [n] request threads, [k] callers of quiesce_reqs. *)
Definition start (n k : nat) : st := St false 0 (repeat Idle n) (repeat (Qs Out []) k).
