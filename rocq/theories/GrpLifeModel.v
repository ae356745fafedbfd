(** The life of the replica groups of one server across crashes: what creating,
    leaving and destroying a group writes, and what a start makes of it.

    Sources: src/lib/replication/service/raft_repl_service.cpp 70-209 (start),
    307-341 (raft_group_config_found), 343-380 (create_state_mgr), 456-497
    (load_repl_dev), 603-613 (destroy_repl_dev), 697-740 (gc_repl_devs);
    src/lib/replication/repl_dev/raft_repl_dev.cpp 31-97 (constructor),
    2210-2247 (load_config, save_config, save_state), 2316-2329
    (permanent_destroy), 2331-2357 (leave);
    src/lib/replication/log_store/home_raft_log_store.cpp 87-120;
    src/lib/logstore/log_store_service.cpp 40-66, 107-245.

    Simplified: a superblock write or removal is atomic (the two superblocks of
    a log device count as one here; LogMetaModel.v has them apart); log stores
    inside a log device are not modelled; the work of two calls for the same
    group does not overlap, as nuraft_mesg runs them one by one, while calls for
    different groups interleave freely at every write; calls from outside begin
    when start() has returned.  Stages other than ACTIVE and DESTROYED are left
    out.  Of a group's raft config superblock the model keeps the value saved
    last by save_config or save_state. *)

From stdpp Require Import gmap.
Open Scope N_scope.

(** What can be seen from outside. *)
Inductive obs :=
| OBegin (g : N)                    (* create_state_mgr(g) begins *)
| ONew (ld : N)                     (* a new log device id *)
| OCreated (g ld : N)               (* create_state_mgr(g) returned *)
| OSaved (g v : N)                  (* save_config / save_state returned *)
| OLeft (g : N)                     (* leave() returned *)
| OTold (g : N)                     (* listener's on_destroy(g) *)
| OGone (g : N)                     (* gc_repl_devs is done with g *)
| OStarted (up : gmap N (N * bool * N)). (* start() returned: for each group its log device,
                                            whether it has a listener, its raft state *)

(** raft_repl_dev_superblk: logdev_id and destroy_pending. *)
Record rdsb := Rd { r_ld : N; r_pend : bool }.

(** repl_dev_stage_t, raft_repl_dev.h. *)
Inductive stage := Active | Destroyed.

(** A RaftReplDev in m_rd_map.  g_lis: attach_listener and use_config were called
    on it; without use_config its m_raft_config_sb is the default constructed
    json_superblk, written under a name nobody registered
    (superblk_handler.hpp 146-154, 181-189). *)
Record grp := Grp { g_ld : N; g_st : stage; g_lis : bool; g_val : N }.

(** How far the running call for a group has come. *)
Inductive pc :=
| C0            (* create_state_mgr: found no such group *)
| C1 (ld : N)   (* get_next_logdev_id wrote the id *)
| C2 (ld : N)   (* the log device is in the map and on disk *)
| C3 (ld : N)   (* RaftReplDev's constructor wrote m_rd_sb *)
| C4 (ld : N)   (* raft_config_sb.write() *)
| L1            (* leave: stage is DESTROYED, destroy_pending not yet written *)
| D0            (* gc_repl_devs picked the group, permanent_destroy begins *)
| D1            (* on_destroy returned *)
| D2            (* m_raft_config_sb.destroy() *)
| D3            (* destroy_log_dev *)
| D4.           (* m_rd_sb.destroy() *)

Inductive why :=
| DupDev      (* HS_REL_ASSERT "logdev id already exists", log_store_service.cpp 200 *)
| NoMeta      (* LogDev::start on a log device without superblock, log_dev.cpp 73-75 *)
| DupSb       (* two superblocks for one group *)
| NoListener. (* a call through the null m_listener *)

Inductive mode :=
| Off
| BRds (todo : gset N)   (* start, step 3: load_repl_dev *)
| BCfgs (todo : gset N)  (* start, step 4: raft_group_config_found *)
| BUnop (todo : gset N)  (* delete_unopened_logdevs *)
| Run
| Dead (w : why).

Record st := St {
  last : N;             (* m_sb->m_last_logdev_id; on disk *)
  devs : gset N;        (* log devices with superblocks; on disk *)
  rds : gmap N rdsb;    (* repl_dev superblocks, by group; on disk *)
  cfgs : gmap N N;      (* raft config superblocks, by group; on disk *)
  md : mode;
  gs : gmap N grp;      (* m_rd_map *)
  lds : gset N;         (* m_id_logdev_map *)
  un : gset N;          (* m_unopened_logdev *)
  fl : gmap N pc;       (* running calls *)
  out : list obs }.     (* newest first *)

(** A server that was just formatted (start with format, log_store_service.cpp 108-112). *)
Definition init : st := St 0 ∅ ∅ ∅ Run ∅ ∅ ∅ ∅ [].

Inductive ev :=
| ECreate (g : N) | ELeave (g : N) | EGc (g : N) | EGcEarly (g : N) | ESave (g v : N)
| ECall (g : N)       (* the raft server calls the listener: become leader, commit, ... *)
| EStep (g : N)
| ECrash
| EBoot | EBootRd (g : N) | EBootCfg (g : N) | EBootDel (x : N) | EBootNext.

Definition dead (s : st) (w : why) : st :=
  St (last s) (devs s) (rds s) (cfgs s) (Dead w) (gs s) (lds s) (un s) (fl s) (out s).
Definition set_fl (s : st) (f : gmap N pc) : st :=
  St (last s) (devs s) (rds s) (cfgs s) (md s) (gs s) (lds s) (un s) f (out s).
Definition say (s : st) (o : obs) : st :=
  St (last s) (devs s) (rds s) (cfgs s) (md s) (gs s) (lds s) (un s) (fl s) (o :: out s).
Definition set_rds (s : st) (r : gmap N rdsb) : st :=
  St (last s) (devs s) r (cfgs s) (md s) (gs s) (lds s) (un s) (fl s) (out s).
Definition set_cfgs (s : st) (c : gmap N N) : st :=
  St (last s) (devs s) (rds s) c (md s) (gs s) (lds s) (un s) (fl s) (out s).
Definition set_gs (s : st) (x : gmap N grp) : st :=
  St (last s) (devs s) (rds s) (cfgs s) (md s) x (lds s) (un s) (fl s) (out s).
Definition set_devs (s : st) (d l : gset N) : st :=
  St (last s) d (rds s) (cfgs s) (md s) (gs s) l (un s) (fl s) (out s).
Definition set_last (s : st) (n : N) : st :=
  St n (devs s) (rds s) (cfgs s) (md s) (gs s) (lds s) (un s) (fl s) (out s).
Definition set_md (s : st) (m : mode) : st :=
  St (last s) (devs s) (rds s) (cfgs s) m (gs s) (lds s) (un s) (fl s) (out s).
Definition set_un (s : st) (u : gset N) : st :=
  St (last s) (devs s) (rds s) (cfgs s) (md s) (gs s) (lds s) u (fl s) (out s).

(** destroy_log_dev, log_store_service.cpp 159-186: nothing if the id is not in the map. *)
Definition destroy_dev (s : st) (x : N) : st :=
  if decide (x ∈ lds s) then set_devs s (devs s ∖ {[x]}) (lds s ∖ {[x]}) else s.

(** The next write of the call running for g. *)
Definition advance (s : st) (g : N) (p : pc) : option st :=
  match p with
  | C0 => (* get_next_logdev_id, log_store_service.cpp 139-143 *)
    Some (say (set_fl (set_last s (last s + 1)) (<[g := C1 (last s + 1)]> (fl s))) (ONew (last s + 1)))
  | C1 ld => (* create_new_logdev_internal and LogDev::start(format), log_store_service.cpp 145-157 *)
    if decide (ld ∈ lds s) then Some (dead s DupDev)
    else Some (set_fl (set_devs s (devs s ∪ {[ld]}) (lds s ∪ {[ld]})) (<[g := C2 ld]> (fl s)))
  | C2 ld => (* m_rd_sb.write(), raft_repl_dev.cpp 84 *)
    match rds s !! g with
    | Some _ => Some (dead s DupSb)
    | None => Some (set_fl (set_rds s (<[g := Rd ld false]> (rds s))) (<[g := C3 ld]> (fl s)))
    end
  | C3 ld => (* raft_config_sb.write(), raft_repl_service.cpp 364-367 *)
    match cfgs s !! g with
    | Some _ => Some (dead s DupSb)
    | None => Some (set_fl (set_cfgs s (<[g := 0]> (cfgs s))) (<[g := C4 ld]> (fl s)))
    end
  | C4 ld => (* attach_listener, add_repl_dev, raft_repl_service.cpp 370-377 *)
    Some (say (set_fl (set_gs s (<[g := Grp ld Active true 0]> (gs s))) (delete g (fl s))) (OCreated g ld))
  | L1 => (* m_rd_sb->destroy_pending = 1; m_rd_sb.write(), raft_repl_dev.cpp 2352-2353 *)
    match gs s !! g with
    | Some r => Some (say (set_fl (set_rds s (<[g := Rd (g_ld r) true]> (rds s))) (delete g (fl s))) (OLeft g))
    | None => None
    end
  | D0 => (* m_listener->on_destroy, raft_repl_dev.cpp 2319 *)
    match gs s !! g with
    | Some r => if g_lis r then Some (say (set_fl s (<[g := D1]> (fl s))) (OTold g)) else Some (dead s NoListener)
    | None => None
    end
  | D1 => Some (set_fl (set_cfgs s (delete g (cfgs s))) (<[g := D2]> (fl s)))
  | D2 =>
    match gs s !! g with
    | Some r => Some (set_fl (destroy_dev s (g_ld r)) (<[g := D3]> (fl s)))
    | None => None
    end
  | D3 => Some (set_fl (set_rds s (delete g (rds s))) (<[g := D4]> (fl s)))
  | D4 => (* m_rd_map.erase, raft_repl_service.cpp 735-738 *)
    Some (say (set_fl (set_gs s (delete g (gs s))) (delete g (fl s))) (OGone g))
  end.

Definition report (r : grp) : N * bool * N := (g_ld r, g_lis r, g_val r).

(** One step; [None]: the event cannot happen now. *)
Definition step (s : st) (e : ev) : option st :=
  match e, md s with
  | ECrash, _ => Some (St (last s) (devs s) (rds s) (cfgs s) Off ∅ ∅ ∅ ∅ (out s))
  | EBoot, Off => (* logdev_super_blk_found for each, log_store_service.cpp 235-265 *)
    Some (St (last s) (devs s) (rds s) (cfgs s) (BRds (dom (rds s))) ∅ (devs s) (devs s) ∅ (out s))
  | EBootRd g, BRds t => (* load_repl_dev *)
    if decide (g ∈ t) then
      match rds s !! g with
      | Some r =>
        let s1 := set_md s (BRds (t ∖ {[g]})) in
        if r_pend r then Some (set_rds s1 (delete g (rds s)))
        else Some (set_gs (set_un (set_devs s1 (devs s) (lds s ∪ {[r_ld r]})) (un s ∖ {[r_ld r]}))
                          (<[g := Grp (r_ld r) Active false 0]> (gs s)))
      | None => None
      end
    else None
  | EBootNext, BRds t => if decide (t = ∅) then Some (set_md s (BCfgs (dom (cfgs s)))) else None
  | EBootCfg g, BCfgs t => (* raft_group_config_found *)
    if decide (g ∈ t) then
      match cfgs s !! g with
      | Some v =>
        let s1 := set_md s (BCfgs (t ∖ {[g]})) in
        match gs s !! g with
        | Some r => Some (set_gs s1 (<[g := Grp (g_ld r) (g_st r) true v]> (gs s)))
        | None => Some (set_cfgs s1 (delete g (cfgs s)))
        end
      | None => None
      end
    else None
  | EBootNext, BCfgs t => (* LogStoreService::start, log_store_service.cpp 107-121 *)
    if decide (t = ∅) then
      if decide (lds s ⊆ devs s) then Some (set_md s (BUnop (un s))) else Some (dead s NoMeta)
    else None
  | EBootDel x, BUnop t => (* delete_unopened_logdevs, log_store_service.cpp 188-194 *)
    if decide (x ∈ t) then Some (set_md (destroy_dev s x) (BUnop (t ∖ {[x]}))) else None
  | EBootNext, BUnop t =>
    if decide (t = ∅) then Some (say (set_md (set_un s ∅) Run) (OStarted (report <$> gs s))) else None
  | ECreate g, Run => (* create_state_mgr, raft_repl_service.cpp 343-350; an existing group is returned as it is *)
    match fl s !! g, gs s !! g with
    | None, None => Some (say (set_fl s (<[g := C0]> (fl s))) (OBegin g))
    | _, _ => None
    end
  | ELeave g, Run => (* leave, raft_repl_dev.cpp 2331-2348 *)
    match fl s !! g, gs s !! g with
    | None, Some r =>
      match g_st r with
      | Active => Some (set_fl (set_gs s (<[g := Grp (g_ld r) Destroyed (g_lis r) (g_val r)]> (gs s))) (<[g := L1]> (fl s)))
      | Destroyed => None
      end
    | _, _ => None
    end
  | EGc g, Run => (* gc_repl_devs, raft_repl_service.cpp 697-730, after leave has returned *)
    match fl s !! g, gs s !! g with
    | None, Some r => match g_st r with Destroyed => Some (set_fl s (<[g := D0]> (fl s))) | Active => None end
    | _, _ => None
    end
  | EGcEarly g, Run => (* the same, between m_stage.update and m_destroyed_time = now in leave:
                          m_destroyed_time is still the epoch, so the waiting time is over *)
    match fl s !! g with
    | Some L1 => Some (set_fl s (<[g := D0]> (fl s)))
    | _ => None
    end
  | ESave g v, Run => (* save_config, save_state *)
    match fl s !! g, gs s !! g with
    | None, Some r =>
      let s1 := set_gs s (<[g := Grp (g_ld r) (g_st r) (g_lis r) v]> (gs s)) in
      Some (say (if g_lis r then set_cfgs s1 (<[g := v]> (cfgs s)) else s1) (OSaved g v))
    | _, _ => None
    end
  | ECall g, Run => (* become_leader_cb, become_follower_cb, on_commit, ... *)
    match fl s !! g, gs s !! g with
    | None, Some r => if g_lis r then Some s else Some (dead s NoListener)
    | _, _ => None
    end
  | EStep g, Run => match fl s !! g with Some p => advance s g p | None => None end
  | _, _ => None
  end.

Fixpoint run (s : st) (l : list ev) : option st :=
  match l with
  | [] => Some s
  | e :: l => match step s e with Some s' => run s' l | None => None end
  end.
