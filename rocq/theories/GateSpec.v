(** What "ready for accepting client IO" (include/homestore/replication/repl_dev.h:593-596)
    means, said of what happens: what was in the log when the replica became leader
    is committed, so a client sees all that earlier leaders committed. *)
From Coq Require Import List.
From Verif Require Import GateModel.
Import ListNotations.

Definition commits (l : list ev) : nat := length (filter (fun e => match e with Commit => true | _ => false end) l).

(** While a replica is leader, from its election on. *)
Definition ready_full (c : nat) (l : list ev) : Prop :=
  forall l1 v l2 i l3, l = l1 ++ Elect v :: l2 ++ Answer i true :: l3 -> ~ In Demote l2 ->
    v <= c + commits (l1 ++ l2).

(** From the call back on. *)
Definition ready (c : nat) (l : list ev) : Prop :=
  forall l1 v l2 i l3, l = l1 ++ CbLeader v :: l2 ++ Answer i true :: l3 -> ~ In CbFollower l2 ->
    v <= c + commits (l1 ++ l2).
