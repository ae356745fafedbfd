(** The gate a new leader opens to clients: is_ready_for_traffic,
    become_leader_cb, become_follower_cb
    (lib/replication/repl_dev/raft_repl_dev.cpp:2456-2469, 2953-2978,
    raft_repl_dev.h:205, 369-373).

    Raft (NuRaft, not in the repository) takes its role first and then calls back;
    until a call back has returned it does nothing else, but its commit thread
    goes on, and so do clients, who load the two numbers one after the other.  A
    leader's log only grows; a follower's log may lose entries that are not
    committed.  A leader may become leader again directly (comment at :2961). *)
From Coq Require Import List Arith Lia Bool.
Import ListNotations.

Inductive wait := None_ | ToLead | ToFollow.

(** [lead]: what is_leader says (:2010); [log]: get_last_log_idx; [com]:
    m_commit_upto_lsn; [gate]: m_traffic_ready_lsn; [asks]: what each client has
    loaded of [com]. *)
Record st := St { lead : bool; pend : wait; log : nat; com : nat; gate : nat; asks : list (option nat) }.

Inductive ev :=
| Elect (v : nat)                 (* raft becomes leader; v: its last log index *)
| CbLeader (v : nat)              (* become_leader_cb; v: the new gate *)
| Demote | CbFollower             (* raft becomes follower; become_follower_cb *)
| Append                          (* one more log entry *)
| Cut (k : nat)                   (* a follower's log is cut to k *)
| Commit                          (* one more entry is committed *)
| Load (i : nat)                  (* is_ready_for_traffic: first load *)
| Answer (i : nat) (ready : bool). (* second load, comparison, return *)

Inductive out := Ok (s : st) | Abort | Stuck.

Fixpoint upd {A} (l : list A) (i : nat) (a : A) : list A :=
  match l, i with
  | [], _ => []
  | _ :: l, O => a :: l
  | b :: l, S i => b :: upd l i a
  end.

Definition step (s : st) (e : ev) : out :=
  match e with
  | Elect v =>
      match pend s with
      | None_ => if v =? log s then Ok (St true ToLead (log s) (com s) (gate s) (asks s)) else Stuck
      | _ => Stuck
      end
  | CbLeader v =>
      match pend s with
      | ToLead =>
          if v =? log s then
            (* RD_REL_ASSERT (:2957) *)
            if gate s <=? v then Ok (St (lead s) None_ (log s) (com s) v (asks s)) else Abort
          else Stuck
      | _ => Stuck
      end
  | Demote =>
      match pend s with
      | None_ => Ok (St false ToFollow (log s) (com s) (gate s) (asks s))
      | _ => Stuck
      end
  | CbFollower =>
      match pend s with
      | ToFollow => Ok (St (lead s) None_ (log s) (com s) 0 (asks s))
      | _ => Stuck
      end
  | Append =>
      match pend s with
      | ToFollow => Stuck
      | _ => Ok (St (lead s) (pend s) (S (log s)) (com s) (gate s) (asks s))
      end
  | Cut k =>
      match pend s with
      | None_ =>
          if negb (lead s) && (com s <=? k) && (k <=? log s)
          then Ok (St (lead s) (pend s) k (com s) (gate s) (asks s)) else Stuck
      | _ => Stuck
      end
  | Commit => if com s <? log s then Ok (St (lead s) (pend s) (log s) (S (com s)) (gate s) (asks s)) else Stuck
  | Load i =>
      match nth_error (asks s) i with
      | Some None => Ok (St (lead s) (pend s) (log s) (com s) (gate s) (upd (asks s) i (Some (com s))))
      | _ => Stuck
      end
  | Answer i b =>
      match nth_error (asks s) i with
      | Some (Some c) =>
          if eqb b (gate s <=? c)
          then Ok (St (lead s) (pend s) (log s) (com s) (gate s) (upd (asks s) i None)) else Stuck
      | _ => Stuck
      end
  end.

Fixpoint run (s : st) (l : list ev) : out :=
  match l with
  | [] => Ok s
  | e :: l => match step s e with Ok s' => run s' l | o => o end
  end.

(** A replica comes up as a follower, with [n] entries of which [c] are committed;
    [k] clients. *)
Definition start (n c k : nat) : st := St false None_ n c 0 (repeat None k).
