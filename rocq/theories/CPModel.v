(** * Model of the checkpoint manager.
    Source: src/lib/checkpoint/cp_mgr.cpp, src/include/homestore/checkpoint/cp.hpp.
    Threads take the steps below in any order.  A step is what one thread does between two
    points at which another thread can see or change something:
    - entering a section is two steps inside a read side of RCU (look at the current
      checkpoint; take a reference);
    - leaving it is two steps (drop the reference; look at the status);
    - the trigger runs under its mutex in four steps (enter; prepare; switch; wait for
      readers and unlock);
    - the completion of a flush is two steps (save and delete; clear the flag under the mutex
      and notify).
    Atomics are sequentially consistent, synchronize_rcu waits for the readers of the old
    pointer.  Consumers are represented by the event that they are asked to flush and by the
    step that says they are done.  Metrics, timers and the watchdog are left out, and so is
    the end of shutdown, where the manager itself is deleted. *)
From Coq Require Import ZArith List Bool.
Import ListNotations.
Open Scope Z_scope.

(** cp.hpp:57-71 *)
Inductive status := IoReady | Trigger | Prepare | Flushing.
(** cp.hpp:90-101: m_cp_status, m_enter_cnt, and who waits on m_comp_promise. *)
Record cp := Cp { c_st : status; c_cnt : nat; c_wait : list nat }.

(** What can be seen from outside: a trigger by [w] while checkpoint [c] is current; the
    consumers are asked to flush [c]; the superblock says [c] is flushed; [w] is told that [c]
    is done; [w] is told that nothing was triggered. *)
Inductive event := ECall (w : nat) (c : Z) | EStart (c : Z) | ESaved (c : Z) | ETold (w : nat) (c : Z) | ERefused (w : nat).

(** The thread inside do_trigger_cp_flush: the checkpoint it holds and for whom it triggers. *)
Inductive trig := TEntered (c : Z) (w : list nat) | TPrepared (c : Z) | TSwapped (c : Z).

(** [m_cps]: the checkpoints not deleted; [m_cur] .. [m_pwait]: m_cur_cp, m_in_flush_phase,
    m_cp_shutdown_initiated, m_pending_trigger_cp, waiters of m_pending_trigger_cp_comp;
    [m_last]: m_last_flushed_cp; [m_trig]: who has the mutex; [m_rcu]: threads that have looked
    at the current checkpoint and not taken the reference yet; [m_in]: open sections;
    [m_exits]: threads that dropped the last reference and have not looked at the status;
    [m_flushes]: flushes running; [m_done]: completions after the deletion of the checkpoint;
    [m_b2b]: completions about to trigger again. *)
Record mgr := Mgr { m_cps : list (Z * cp); m_cur : Z; m_inflush : bool; m_shut : bool; m_pending : bool; m_pwait : list nat;
  m_last : Z; m_trig : option trig; m_rcu : list Z; m_in : list Z; m_exits : list Z; m_flushes : list Z;
  m_done : list (Z * list nat); m_b2b : nat; m_log : list event }.

Fixpoint get (c : Z) (l : list (Z * cp)) : option cp :=
  match l with [] => None | (k, p) :: r => if k =? c then Some p else get c r end.
Definition put (c : Z) (p : cp) (l : list (Z * cp)) : list (Z * cp) := map (fun e => if fst e =? c then (fst e, p) else e) l.
Definition del (c : Z) (l : list (Z * cp)) : list (Z * cp) := filter (fun e => negb (fst e =? c)) l.
(** Takes one occurrence out. *)
Fixpoint take (c : Z) (l : list Z) : option (list Z) :=
  match l with
  | [] => None
  | x :: r => if x =? c then Some r else match take c r with Some r' => Some (x :: r') | None => None end
  end.

Definition with_cps s v := Mgr v (m_cur s) (m_inflush s) (m_shut s) (m_pending s) (m_pwait s) (m_last s) (m_trig s) (m_rcu s) (m_in s) (m_exits s) (m_flushes s) (m_done s) (m_b2b s) (m_log s).
Definition with_cur s v := Mgr (m_cps s) v (m_inflush s) (m_shut s) (m_pending s) (m_pwait s) (m_last s) (m_trig s) (m_rcu s) (m_in s) (m_exits s) (m_flushes s) (m_done s) (m_b2b s) (m_log s).
Definition with_inflush s v := Mgr (m_cps s) (m_cur s) v (m_shut s) (m_pending s) (m_pwait s) (m_last s) (m_trig s) (m_rcu s) (m_in s) (m_exits s) (m_flushes s) (m_done s) (m_b2b s) (m_log s).
Definition with_shut s v := Mgr (m_cps s) (m_cur s) (m_inflush s) v (m_pending s) (m_pwait s) (m_last s) (m_trig s) (m_rcu s) (m_in s) (m_exits s) (m_flushes s) (m_done s) (m_b2b s) (m_log s).
Definition with_pending s b v := Mgr (m_cps s) (m_cur s) (m_inflush s) (m_shut s) b v (m_last s) (m_trig s) (m_rcu s) (m_in s) (m_exits s) (m_flushes s) (m_done s) (m_b2b s) (m_log s).
Definition with_last s v := Mgr (m_cps s) (m_cur s) (m_inflush s) (m_shut s) (m_pending s) (m_pwait s) v (m_trig s) (m_rcu s) (m_in s) (m_exits s) (m_flushes s) (m_done s) (m_b2b s) (m_log s).
Definition with_trig s v := Mgr (m_cps s) (m_cur s) (m_inflush s) (m_shut s) (m_pending s) (m_pwait s) (m_last s) v (m_rcu s) (m_in s) (m_exits s) (m_flushes s) (m_done s) (m_b2b s) (m_log s).
Definition with_rcu s v := Mgr (m_cps s) (m_cur s) (m_inflush s) (m_shut s) (m_pending s) (m_pwait s) (m_last s) (m_trig s) v (m_in s) (m_exits s) (m_flushes s) (m_done s) (m_b2b s) (m_log s).
Definition with_in s v := Mgr (m_cps s) (m_cur s) (m_inflush s) (m_shut s) (m_pending s) (m_pwait s) (m_last s) (m_trig s) (m_rcu s) v (m_exits s) (m_flushes s) (m_done s) (m_b2b s) (m_log s).
Definition with_exits s v := Mgr (m_cps s) (m_cur s) (m_inflush s) (m_shut s) (m_pending s) (m_pwait s) (m_last s) (m_trig s) (m_rcu s) (m_in s) v (m_flushes s) (m_done s) (m_b2b s) (m_log s).
Definition with_flushes s v := Mgr (m_cps s) (m_cur s) (m_inflush s) (m_shut s) (m_pending s) (m_pwait s) (m_last s) (m_trig s) (m_rcu s) (m_in s) (m_exits s) v (m_done s) (m_b2b s) (m_log s).
Definition with_done s v := Mgr (m_cps s) (m_cur s) (m_inflush s) (m_shut s) (m_pending s) (m_pwait s) (m_last s) (m_trig s) (m_rcu s) (m_in s) (m_exits s) (m_flushes s) v (m_b2b s) (m_log s).
Definition with_b2b s v := Mgr (m_cps s) (m_cur s) (m_inflush s) (m_shut s) (m_pending s) (m_pwait s) (m_last s) (m_trig s) (m_rcu s) (m_in s) (m_exits s) (m_flushes s) (m_done s) v (m_log s).
Definition say s e := Mgr (m_cps s) (m_cur s) (m_inflush s) (m_shut s) (m_pending s) (m_pwait s) (m_last s) (m_trig s) (m_rcu s) (m_in s) (m_exits s) (m_flushes s) (m_done s) (m_b2b s) (m_log s ++ e).

(** cp_mgr.cpp:107-112 create_first_cp, with what the superblock says. *)
Definition boot (last : Z) : mgr := Mgr [(last + 1, Cp IoReady 0 [])] (last + 1) false false false [] last None [] [] [] [] [] 0 [].

Inductive act :=
| AEnter1                                  (* cp_io_enter: the current checkpoint is looked up *)
| AEnter2 (c : Z)                          (* ... and referenced *)
| ARef (c : Z)                             (* CPGuard: nested, or copied *)
| AExit1 (c : Z)                           (* cp_io_exit: the reference is dropped *)
| AExit2 (c : Z)                           (* ... the status is looked at after the last one *)
| ATrig (w : nat) (force on_shutdown : bool)
| ATPrepare | ATSwap | ATSync              (* the rest of do_trigger_cp_flush *)
| AFlushed (c : Z)                         (* all consumers are done: on_cp_flush_done *)
| ADone (c : Z)                            (* ... with the mutex *)
| AB2B                                     (* ... triggers again *)
| AShut.                                   (* shutdown is initiated *)

(** [Stop]: the step cannot be taken now.  [Crash]: access to a deleted checkpoint, or a
    failed assertion. *)
Inductive res := Stop | Crash | Ok (s : mgr).

(** cp_mgr.cpp:172-180 cp_ref *)
Definition cp_ref (c : Z) (s : mgr) : res :=
  match get c (m_cps s) with
  | None => Crash
  | Some p => match c_st p with
              | Flushing => Crash
              | _ => Ok (with_in (with_cps s (put c (Cp (c_st p) (S (c_cnt p)) (c_wait p)) (m_cps s))) (c :: m_in s))
              end
  end.
(** cp_mgr.cpp:159-170 cp_io_enter *)
Definition enter1 (s : mgr) : res := Ok (with_rcu s (m_cur s :: m_rcu s)).
Definition enter2 (c : Z) (s : mgr) : res :=
  match take c (m_rcu s) with None => Stop | Some r => cp_ref c (with_rcu s r) end.
(** cp_mgr.cpp:182-188 cp_io_exit, up to the [&&] *)
Definition exit1 (c : Z) (s : mgr) : res :=
  match take c (m_in s) with
  | None => Stop
  | Some r =>
    match get c (m_cps s) with
    | None => Crash
    | Some p => match c_st p, c_cnt p with
                | Flushing, _ => Crash
                | _, O => Crash
                | st, S n => let s' := with_in (with_cps s (put c (Cp st n (c_wait p)) (m_cps s))) r in
                             Ok (if Nat.eqb n 0 then with_exits s' (c :: m_exits s) else s')
                end
    end
  end.
(** The rest of it, and cp_mgr.cpp:263-273 cp_start_flush up to the calls of the consumers. *)
Definition exit2 (c : Z) (s : mgr) : res :=
  match take c (m_exits s) with
  | None => Stop
  | Some r =>
    match get c (m_cps s) with
    | None => Crash
    | Some p => let s' := with_exits s r in
                Ok (match c_st p with
                    | Prepare => say (with_flushes (with_cps s' (put c (Cp Flushing (c_cnt p) (c_wait p)) (m_cps s))) (c :: m_flushes s)) [EStart c]
                    | _ => s'
                    end)
    end
  end.
(** cp_mgr.cpp:197-224 do_trigger_cp_flush, up to the new status; [w]: the caller, or nobody
    for a trigger whose future is dropped. *)
Definition trigger (w : list nat) (force on_shutdown : bool) (s0 : mgr) : res :=
  match m_trig s0 with
  | Some _ => Stop
  | None =>
    let s := say s0 (map (fun w => ECall w (m_cur s0)) w) in
    if m_inflush s then
      if force && (negb (m_shut s) || on_shutdown) then Ok (with_pending s true ((if m_pending s then m_pwait s else []) ++ w))
      else Ok (say s (map ERefused w))
    else
      match get (m_cur s) (m_cps s) with
      | None => Crash
      | Some p => match c_st p with
                  | Flushing => Crash
                  | _ => Ok (with_trig (with_inflush (with_cps s (put (m_cur s) (Cp Trigger (S (c_cnt p)) (c_wait p)) (m_cps s))) true)
                                       (Some (TEntered (m_cur s) w)))
                  end
      end
  end.
(** cp_mgr.cpp:226-251: promise and status. *)
Definition tprepare (s : mgr) : res :=
  match m_trig s with
  | Some (TEntered c w) =>
    match get c (m_cps s) with
    | None => Crash
    | Some p => let waiters := (if m_pending s then m_pwait s else []) ++ w in
                Ok (with_trig (with_pending (with_cps s (put c (Cp Prepare (c_cnt p) waiters) (m_cps s))) false []) (Some (TPrepared c)))
    end
  | _ => Stop
  end.
(** cp_mgr.cpp:222-224, :252-253: the new checkpoint becomes current. *)
Definition tswap (s : mgr) : res :=
  match m_trig s with
  | Some (TPrepared c) => Ok (with_trig (with_cur (with_cps s (m_cps s ++ [(c + 1, Cp IoReady 0 [])])) (c + 1)) (Some (TSwapped c)))
  | _ => Stop
  end.
(** cp_mgr.cpp:254-261: no reader of the old pointer is left; unlock.  The reference of the
    trigger becomes an ordinary section, closed by the destructor of cur_cp. *)
Definition tsync (s : mgr) : res :=
  match m_trig s with
  | Some (TSwapped c) => if existsb (Z.eqb c) (m_rcu s) then Stop else Ok (with_in (with_trig s None) (c :: m_in s))
  | _ => Stop
  end.
(** cp_mgr.cpp:275-283, :286-303: the superblock, cleanup and deletion. *)
Definition flushed (c : Z) (s : mgr) : res :=
  match take c (m_flushes s) with
  | None => Stop
  | Some r =>
    match get c (m_cps s) with
    | None => Crash
    | Some p => match c_st p with
                | Flushing => Ok (say (with_done (with_last (with_flushes (with_cps s (del c (m_cps s))) r) (m_last s + 1)) ((c, c_wait p) :: m_done s)) [ESaved (m_last s + 1)])
                | _ => Crash
                end
    end
  end.
(** cp_mgr.cpp:305-320 *)
Definition done (c : Z) (s : mgr) : res :=
  match m_trig s with
  | Some _ => Stop
  | None =>
    match find (fun d => fst d =? c) (m_done s) with
    | None => Stop
    | Some (_, ws) =>
      Ok (say (with_b2b (with_inflush (with_done s (filter (fun d => negb (fst d =? c)) (m_done s))) false) (m_b2b s + (if m_pending s then 1 else 0)))
              (map (fun w => ETold w c) ws))
    end
  end.
Definition b2b (s : mgr) : res :=
  match m_b2b s with
  | O => Stop
  | S n => trigger [] false false (with_b2b s n)
  end.

Definition step (s : mgr) (a : act) : res :=
  match a with
  | AEnter1 => enter1 s
  | AEnter2 c => enter2 c s
  | ARef c => if existsb (Z.eqb c) (m_in s) then cp_ref c s else Stop
  | AExit1 c => exit1 c s
  | AExit2 c => exit2 c s
  | ATrig w f sh => trigger [w] f sh s
  | ATPrepare => tprepare s
  | ATSwap => tswap s
  | ATSync => tsync s
  | AFlushed c => flushed c s
  | ADone c => done c s
  | AB2B => b2b s
  | AShut => Ok (with_shut s true)
  end.
