(** What raft relies on: the last saved state and configuration, from the calls. *)
From Coq Require Import List ZArith Bool String.
From Verif Require Import RaftStateModel.
Import ListNotations.

(** Last state, and last configuration, whose write took place. *)
Definition last_state (l : list ev) : sst :=
  fold_left (fun s e => match e with Save st | SaveCrash st true => st | _ => s end) l fresh.
Definition last_cfg (l : list ev) : option cfg :=
  fold_left (fun s e => match e with SetCfg c | CfgCrash c true => Some c | _ => s end) l None.

(** Votes that others were told about: saved, and save_state returned. *)
Fixpoint votes (l : list ev) : list (Z * Z) :=
  match l with
  | [] => []
  | Save st :: l => if Z.eqb (voted st) none then votes l else (term st, voted st) :: votes l
  | _ :: l => votes l
  end.

(** The servers that are there, in order. *)
Fixpoint present (l : list (option srv)) : list (option srv) :=
  match l with [] => [] | Some s :: l => Some s :: present l | None :: l => present l end.

Definition same (c c' : cfg) : Prop :=
  log_idx c' = log_idx c /\ prev_idx c' = prev_idx c /\ eventual c' = eventual c /\ uctx c' = uctx c /\
  servers c' = present (servers c).
