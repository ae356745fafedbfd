(** The raft configuration superblock of a replica: term, vote and membership
    over crashes.  Model of

    - RaftReplDev::save_state, read_state, save_config, load_config
      (lib/replication/repl_dev/raft_repl_dev.cpp:2210-2293),
    - serialize_/deserialize_ server_config, server_list, cluster_config
      (raft_repl_dev.cpp:2149-2208),
    - json_superblk::write, load (include/homestore/superblk_handler.hpp:156-201),
    - creation of the superblock in RaftReplService::create_state_mgr
      (lib/replication/service/raft_repl_service.cpp:359-363).

    Simplifications.  nlohmann::json is the type below, and to_msgpack followed
    by from_msgpack gives the same value.  A write of the superblock is atomic
    (C28).  Numbers are unbounded (ids and priorities are int32 on both sides).
    The bytes of nuraft::srv_state are made by nuraft: a [codec].  Names of
    exceptions matter: nlohmann's exceptions are std::exception, but none is a
    std::out_of_range. *)
From Coq Require Import List ZArith Bool String.
Import ListNotations.
Open Scope string_scope.
Open Scope Z_scope.

Inductive json :=
| JNull | JNum (z : Z) | JBool (b : bool) | JStr (s : string)
| JArr (l : list json) | JObj (l : list (string * json)).

Fixpoint assoc (k : string) (l : list (string * json)) : option json :=
  match l with
  | [] => None
  | (k', v) :: l => if String.eqb k' k then Some v else assoc k l
  end.
Fixpoint put (k : string) (v : json) (l : list (string * json)) : list (string * json) :=
  match l with
  | [] => [(k, v)]
  | (k', v') :: l => if String.eqb k' k then (k, v) :: l else (k', v') :: put k v l
  end.

(** Fields; [set] is operator[] on the left of an assignment. *)
Definition get (k : string) (j : json) : option json := match j with JObj l => assoc k l | _ => None end.
Definition set (k : string) (v : json) (j : json) : json := match j with JObj l => JObj (put k v l) | _ => JObj [(k, v)] end.

(** json::empty. *)
Definition empty (j : json) : bool :=
  match j with JNull => true | JArr [] => true | JObj [] => true | _ => false end.

(** Conversions; [None] is a type_error. *)
Definition as_num (j : json) : option Z := match j with JNum z => Some z | _ => None end.
Definition as_bool (j : json) : option bool := match j with JBool b => Some b | _ => None end.
Definition as_str (j : json) : option string := match j with JStr s => Some s | _ => None end.
Fixpoint all {A} (l : list (option A)) : option (list A) :=
  match l with
  | [] => Some []
  | Some x :: l => match all l with Some r => Some (x :: r) | None => None end
  | None :: _ => None
  end.

Definition bind {A B} (x : option A) (f : A -> option B) : option B := match x with Some a => f a | None => None end.
Notation "x <- e ;; k" := (bind e (fun x => k)) (at level 100, e at next level, right associativity).

Definition num k j := v <- get k j ;; as_num v.
Definition bln k j := v <- get k j ;; as_bool v.
Definition str k j := v <- get k j ;; as_str v.

(** nuraft::srv_config, cluster_config: what the code saves of them.  A null
    pointer in the list of servers is [None]. *)
Record srv := Srv { sid : Z; dc : Z; endpoint : string; aux : string; learner : bool; prio : Z }.
Record cfg := Cfg { log_idx : Z; prev_idx : Z; eventual : bool; uctx : string; servers : list (option srv) }.

(** serialize_server_config (raft_repl_dev.cpp:2149-2161). *)
Definition ser_srv (s : srv) : json :=
  JObj [("id", JNum (sid s)); ("dc_id", JNum (dc s)); ("endpoint", JStr (endpoint s)); ("aux", JStr (aux s));
        ("learner", JBool (learner s)); ("priority", JNum (prio s))].
Fixpoint ser_servers (l : list (option srv)) : list json :=
  match l with
  | [] => []
  | Some s :: l => ser_srv s :: ser_servers l
  | None :: l => ser_servers l
  end.

(** serialize_cluster_config (:2163-2169). *)
Definition ser_cfg (c : cfg) : json :=
  JObj [("log_idx", JNum (log_idx c)); ("prev_log_idx", JNum (prev_idx c));
        ("eventual_consistency", JBool (eventual c)); ("user_ctx", JStr (uctx c));
        ("servers", JArr (ser_servers (servers c)))].

(** deserialize_server_config (:2171-2185). *)
Definition deser_srv (j : json) : option (option srv) :=
  i <- num "id" j ;; d <- num "dc_id" j ;; e <- str "endpoint" j ;; a <- str "aux" j ;;
  l <- bln "learner" j ;; p <- num "priority" j ;; Some (Some (Srv i d e a l p)).

(** deserialize_cluster_config (:2194-2208). *)
Definition deser_cfg (j : json) : option cfg :=
  i <- num "log_idx" j ;; p <- num "prev_log_idx" j ;; e <- bln "eventual_consistency" j ;; u <- str "user_ctx" j ;;
  s <- get "servers" j ;;
  match s with
  | JArr l => r <- all (map deser_srv l) ;; Some (Cfg i p e u r)
  | _ => None
  end.

(** nuraft::srv_state. *)
Record sst := Sst { term : Z; voted : Z; election : bool; catching : bool; receiving : bool }.
Definition none : Z := -1.
Definition fresh : sst := Sst 0 none true false false.

(** srv_state::serialize and deserialize (nuraft); [None] is an exception. *)
Record codec := Codec {
  enc : sst -> list Z; dec : list Z -> option sst;
  enc_dec : forall s, dec (enc s) = Some s; enc_ne : forall s, enc s <> [] }.

(** save_state without the write (:2230-2238). *)
Definition put_state (K : codec) (st : sst) (j : json) : json :=
  set "state" JNull (set "nuraft_state" (JArr (map JNum (enc K st))) j).

(** js["state"] of a missing field is null. *)
Definition at_ (k : string) (j : json) : json := match get k j with Some v => v | None => JNull end.

Inductive result := Read (s : sst) | Throws.

(** The older format (:2274-2281). *)
Definition legacy (j : json) : option sst :=
  t <- num "term" j ;; v <- num "voted_for" j ;; e <- bln "election_timer_allowed" j ;; c <- bln "catching_up" j ;;
  Some (Sst t v e c false).

(** read_state (:2248-2293). *)
Definition read_state (K : codec) (j : json) : result :=
  let s := at_ "state" j in
  let n := at_ "nuraft_state" j in
  if empty s && empty n then Read fresh
  else if negb (empty n) then
    (* any std::exception is caught: default state *)
    match (match n with JArr l => b <- all (map as_num l) ;; dec K b | _ => None end) with
    | Some st => Read st
    | None => Read fresh
    end
  else
    (* only std::out_of_range is caught, which json does not throw *)
    match legacy s with Some st => Read st | None => Throws end.

(** load_config (:2210-2221): a configuration that is not there is made up in
    memory; [me] is this server. *)
Definition alone (me : srv) : cfg := Cfg 0 0 false "" [Some me].
Definition with_config (me : srv) (j : json) : json :=
  match get "config" j with Some _ => j | None => set "config" (ser_cfg (alone me)) j end.
Definition load_config (me : srv) (j : json) : option cfg :=
  c <- get "config" (with_config me j) ;; deser_cfg c.

(** A replica: m_raft_config_sb in memory, the superblock on the drives, and the
    state that nuraft works with while the replica is up. *)
Record rep := Rep { mem : json; disk : json; cur : option sst }.

Inductive ev :=
| Save (st : sst)                 (* save_state returns *)
| SaveCrash (st : sst) (b : bool) (* a crash in save_state; [b]: the write took place *)
| SetCfg (c : cfg)                (* save_config *)
| CfgCrash (c : cfg) (b : bool)
| Load                            (* load_config *)
| Crash
| Boot.                           (* superblock found, read_state *)

(** What nuraft does: terms do not go back, and a vote is not changed in its
    term. *)
Definition follows (o n : sst) : bool :=
  (term o <? term n) || ((term o =? term n) && ((voted o =? none) || (voted n =? voted o))).

Definition step (K : codec) (me : srv) (r : rep) (e : ev) : option rep :=
  match cur r, e with
  | Some o, Save st =>
      if follows o st then let j := put_state K st (mem r) in Some (Rep j j (Some st)) else None
  | Some o, SaveCrash st b =>
      if follows o st then
        let j := put_state K st (mem r) in Some (Rep j (if b then j else disk r) None)
      else None
  | Some o, SetCfg c => let j := set "config" (ser_cfg c) (mem r) in Some (Rep j j (Some o))
  | Some _, CfgCrash c b =>
      let j := set "config" (ser_cfg c) (mem r) in Some (Rep j (if b then j else disk r) None)
  | Some o, Load => Some (Rep (with_config me (mem r)) (disk r) (Some o))
  | _, Crash => Some (Rep (mem r) (disk r) None)
  | None, Boot =>
      match read_state K (disk r) with
      | Read st => Some (Rep (disk r) (disk r) (Some st))
      | Throws => None
      end
  | _, _ => None
  end.

Fixpoint run (K : codec) (me : srv) (r : rep) (l : list ev) : option rep :=
  match l with
  | [] => Some r
  | e :: l => match step K me r e with Some r' => run K me r' l | None => None end
  end.

(** create_state_mgr: a superblock with the id of the group. *)
Definition created (g : string) : json := JObj [("group_id", JStr g)].
Definition start (g : string) : rep := Rep (created g) (created g) (Some fresh).
