(** Replacing a member of a raft group: the calls of
    /repo/src/lib/replication/repl_dev/raft_repl_dev.cpp 205-842 and the
    commits 1829-1919, with the periodic check 2496-2565.

    The group is seen from one replica: the configuration raft has committed,
    the task in the replica's super block (every replica commits the same
    entries in the same order), and this replica's custom quorum size.  What
    raft does with a call is up to the environment ([ans], and whether this
    replica leads at each point it asks).

    Not modelled: stopping and stage checks, requests that cannot be
    initialised, the listener, flips of the test build, priorities set by other
    calls.  Task ids are lists of characters without NUL. *)
From Coq Require Import ZArith NArith List Bool Arith.
Import ListNotations.
Local Open Scope N_scope.

(** A server of the configuration with the last log index the leader knows of,
    get_replication_status 2019-2034.  Node ids are not 0 (nil_uuid). *)
Record member := Mem { m_id : N; m_learner : bool; m_prio : Z; m_lsn : N }.

(** replace_member_task_superblk, raft_repl_dev.h 21-25; no task: the id is
    empty and the replicas are nil. *)
Record task := Task { t_id : list N; t_out : N; t_in : N }.
Definition no_task : task := Task [] 0 0.

Record grp := Grp {
  g_cfg : list member;      (* the committed cluster configuration *)
  g_task : task;            (* m_rd_sb->replace_member_task *)
  g_quorum : N;             (* custom commit and election quorum, 0: majority *)
  g_commit : N;             (* m_commit_upto_lsn *)
  g_start : N               (* m_data_journal->start_index() *)
}.

Inductive err := Ok | NotLeader | Mismatch | NotFound | QuorumNotMet | Retry | BadRequest
  | Cancelled | Failed.

(** How raft answers a proposal: done; refused; reported as an error or a
    timeout but committed all the same. *)
Inductive ans := Done | Refused | Late.
Definition applied (a : ans) : bool := match a with Refused => false | _ => true end.

Definition with_cfg (g : grp) (c : list member) : grp :=
  Grp c (g_task g) (g_quorum g) (g_commit g) (g_start g).
Definition with_task (g : grp) (t : task) : grp :=
  Grp (g_cfg g) t (g_quorum g) (g_commit g) (g_start g).
(** reset_quorum_size, 834-840. *)
Definition reset_quorum (g : grp) (q : N) : grp :=
  Grp (g_cfg g) (g_task g) q (g_commit g) (g_start g).

Definition find (c : list member) (i : N) : option member :=
  List.find (fun m => m_id m =? i) c.
Definition has (c : list member) (i : N) : bool :=
  match find c i with Some _ => true | None => false end.

(** What raft does to the configuration. *)
Definition set_learner (c : list member) (i : N) (b : bool) : list member :=
  map (fun m => if m_id m =? i then Mem i b (m_prio m) (m_lsn m) else m) c.
Definition add (c : list member) (m : member) : list member := c ++ [m].
Definition del (c : list member) (i : N) : list member :=
  filter (fun m => negb (m_id m =? i)) c.

(** The id as replace_member_ctx and strncpy keep it, raft_repl_dev.h 52-58 and
    raft_repl_dev.cpp 1838. *)
Definition ctx_id (i : list N) : list N := firstn 63 i.
Definition id_eqb (a b : list N) : bool := if list_eq_dec N.eq_dec a b then true else false.
Definition no_id (i : list N) : bool := match i with [] => true | _ => false end.

Section Dev.
(** consensus.laggy_threshold; the id of this replica, m_my_repl_id. *)
Context (laggy : N) (me : N).

(** get_active_peers, 2099-2127. *)
Definition least_active (g : grp) : N :=
  N.max (if laggy <? g_commit g then g_commit g - laggy else 0) (g_start g - 1).
Definition active_peers (g : grp) : list N :=
  map m_id (filter (fun m => negb (m_id m =? me) && (least_active g <=? m_lsn m)) (g_cfg g)).

(** get_quorum_for_commit, 2129-2136. *)
Definition voters (c : list member) : list member := filter (fun m => negb (m_learner m)) c.
Definition commit_quorum_of (c : list member) : N := N.of_nat (length (voters c)) / 2 + 1.

(** The count of start_replace_member, 277-282: peers that are neither of the
    two, and the leader. *)
Definition active_num (g : grp) (out inn : N) : N :=
  fold_left (fun n p => let n := if p =? out then n - 1 else n in
                        if p =? inn then n - 1 else n)
    (active_peers g) (N.of_nat (length (active_peers g)) + 1).

(** do_flip_learner, 687-733.  [lead]: this replica leads; the flag raft knows
    is looked at until it says learner, whatever was asked for. *)
Definition do_flip (g : grp) (i : N) (target verify lead : bool) (a : ans) : grp * err :=
  if negb lead then (g, NotLeader)
  else
    match find (g_cfg g) i with
    | None => (g, NotFound)
    | Some m =>
        let '(g, r) :=
          if Bool.eqb (m_learner m) target then (g, Ok)
          else ((if applied a then with_cfg g (set_learner (g_cfg g) i target) else g),
                match a with Done => Ok | _ => Retry end) in
        match r with
        | Ok =>
            if verify then
              match find (g_cfg g) i with
              | Some m => if m_learner m then (g, Ok) else (g, Retry)
              | None => (g, Failed)
              end
            else (g, Ok)
        | r => (g, r)
        end
    end.

(** do_add_member, 526-559.  [lsn]: what the leader knows of the log of the new
    member. *)
Definition do_add (g : grp) (i : N) (prio : Z) (lsn : N) (lead : bool) (a : ans) : grp * err :=
  if negb lead then (g, BadRequest)
  else if has (g_cfg g) i then (g, Ok)                     (* SERVER_ALREADY_EXISTS *)
  else ((if applied a then with_cfg g (add (g_cfg g) (Mem i false prio lsn)) else g),
        match a with Done => Ok | Late => Cancelled | Refused => Retry end).

(** do_remove_member, 610-662. *)
Definition do_remove (g : grp) (i : N) (verify lead : bool) (a : ans) : grp * err :=
  if (me =? i) && lead then (g, NotLeader)
  else if negb (has (g_cfg g) i) then (g, Ok)              (* SERVER_NOT_FOUND *)
  else
    let g' := if applied a then with_cfg g (del (g_cfg g) i) else g in
    match a with
    | Done => if verify && has (g_cfg g') i then (g', Retry) else (g', Ok)
    | _ => (g', Retry)
    end.

(** propose_to_raft of a control entry; [f]: its commit. *)
Definition propose (g : grp) (f : grp -> grp) (a : ans) : grp * err :=
  ((if applied a then f g else g), match a with Done => Ok | _ => Failed end).

(** The commits, 1829-1842, 1844-1863, 1871-1919. *)
Definition commit_start (i : list N) (out inn : N) (g : grp) : grp :=
  with_task g (Task (ctx_id i) out inn).
Definition commit_complete (g : grp) : grp :=
  if no_id (t_id (g_task g)) then g else with_task g no_task.
Definition commit_clean (i : list N) (g : grp) : grp :=
  if no_id (t_id (g_task g)) then g
  else if id_eqb (t_id (g_task g)) i then with_task g no_task else g.

(** What happens during a call: whether this replica leads when asked (twice or
    three times), what raft answers in turn, and the log of the new member. *)
Record env := Env {
  e_lead1 : bool; e_lead2 : bool; e_lead3 : bool;
  e_a1 : ans; e_a2 : ans; e_a3 : ans; e_lsn : N }.

(** start_replace_member, 205-372. *)
Definition start_replace (g : grp) (i : list N) (out inn : N) (q : N) (v : env) : grp * err :=
  if me =? out then (g, NotLeader)
  else
    let g := if 1 <=? q then reset_quorum g q else g in
    if negb (e_lead1 v) then (g, NotLeader)
    else if negb (no_id (t_id (g_task g))) && negb (id_eqb (t_id (g_task g)) i) then
      (reset_quorum g 0, Mismatch)
    else
      match find (g_cfg g) out with
      | None => if has (g_cfg g) inn then (g, Ok) else (reset_quorum g 0, NotFound)
      | Some m =>
          if (active_num g out inn <? commit_quorum_of (g_cfg g)) && (q =? 0) then
            (reset_quorum g 0, QuorumNotMet)
          else
            match do_flip g out true true (e_lead2 v) (e_a1 v) with
            | (g, Ok) =>
                match propose g (commit_start i out inn) (e_a2 v) with
                | (g, Ok) =>
                    match do_add g inn (m_prio m) (e_lsn v) (e_lead3 v) (e_a3 v) with
                    | (g, Ok) => (reset_quorum g 0, Ok)
                    | (g, e) => (reset_quorum g 0, e)
                    end
                | (g, e) => (reset_quorum g 0, e)
                end
            | (g, e) => (reset_quorum g 0, e)
            end
      end.

(** complete_replace_member, 374-453. *)
Definition complete_replace (g : grp) (out : N) (q : N) (v : env) : grp * err :=
  let g := if 1 <=? q then reset_quorum g q else g in
  match do_remove g out true (e_lead1 v) (e_a1 v) with
  | (g, Ok) =>
      match propose g commit_complete (e_a2 v) with
      | (g, e) => (reset_quorum g 0, e)
      end
  | (g, e) => (reset_quorum g 0, e)
  end.

(** monitor_replace_member_replication_status, 2496-2565. *)
Definition lsn_of (c : list member) (i : N) : N :=
  match find c i with Some m => m_lsn m | None => 0 end.
Definition monitor (g : grp) (v : env) : grp * err :=
  let t := g_task g in
  if negb (e_lead1 v) then (g, Ok)
  else if (t_in t =? 0) || (t_out t =? 0) then (g, Ok)
  else if negb (has (g_cfg g) (t_in t)) then (g, Ok)
  else if negb (lsn_of (g_cfg g) (t_out t) <=? lsn_of (g_cfg g) (t_in t) + laggy) then (g, Ok)
  else complete_replace g (t_out t) 0 v.

(** flip_learner_flag, 664-685. *)
Definition flip_learner (g : grp) (i : N) (target : bool) (q : N) (verify : bool) (v : env) : grp * err :=
  let g := if 1 <=? q then reset_quorum g q else g in
  match do_flip g i target verify (e_lead1 v) (e_a1 v) with
  | (g, Ok) => (g, Ok)
  | (g, e) => (reset_quorum g 0, e)
  end.

(** remove_member, 561-608. *)
Definition remove_member (g : grp) (i : N) (q : N) (verify : bool) (v : env) : grp * err :=
  let g := if 1 <=? q then reset_quorum g q else g in
  match do_remove g i verify (e_lead1 v) (e_a1 v) with
  | (g, Ok) =>
      match propose g (fun g => g) (e_a2 v) with
      | (g, e) => (reset_quorum g 0, e)
      end
  | (g, e) => (reset_quorum g 0, e)
  end.

(** clean_replace_member_task, 735-782. *)
Definition clean_task (g : grp) (i : list N) (q : N) (v : env) : grp * err :=
  if negb (e_lead1 v) then (g, NotLeader)
  else if no_id (t_id (g_task g)) then (g, Ok)
  else if negb (id_eqb (t_id (g_task g)) i) then (g, Mismatch)
  else
    let g := if 1 <=? q then reset_quorum g q else g in
    match propose g (commit_clean (t_id (g_task g))) (e_a1 v) with
    | (g, e) => (reset_quorum g 0, e)
    end.

(** get_replace_member_status, 455-524, without a list of others. *)
Inductive status := SNotLeader | SCompleted | STaskNotFound | SMismatch | SInProgress.
Definition get_status (g : grp) (i : list N) (out inn : N) (lead : bool) : status :=
  if negb lead then SNotLeader
  else if no_id (t_id (g_task g)) then
    if negb (has (g_cfg g) out) && has (g_cfg g) inn then SCompleted else STaskNotFound
  else if negb (id_eqb (t_id (g_task g)) i) then SMismatch
  else SInProgress.

End Dev.
