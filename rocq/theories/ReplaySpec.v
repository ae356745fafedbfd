(** * What a replica must have after a crash. *)
From Coq Require Import ZArith List.
From Verif Require Import ReplayModel.
Open Scope Z_scope.

(** The effects of write [l] are in the replica's state, or the write is still to be committed
    from the log. *)
Definition present (s : st) (l : Z) : Prop := In l (dur s) \/ In l (old s) \/ In l (cur s).
Definition pending (s : st) (l : Z) : Prop := tr s < l <= log s /\ nxt s <= l.

(** Orders of events.  [free]: any without a baseline resync. *)
Definition free (s : st) (e : ev) : Prop := match e with SnapHead _ => False | _ => True end.
(** No checkpoint reaches the replication service while the commit position is being saved. *)
Definition calm (s : st) (e : ev) : Prop := match e with Seal => ld s = None | _ => True end.
(** No checkpoint starts in the middle of a commit. *)
Definition whole_commits (s : st) (e : ev) : Prop := match e with Switch => mid s = false | _ => True end.
(** No commit makes a step between the start of a checkpoint and the flush of the replication
    service. *)
Definition in_window (s : st) : Prop := match ph s with Some (_, _, false) => True | _ => False end.
Definition quiet_checkpoints (s : st) (e : ev) : Prop :=
  match e with Step1 | Step2 => ~ in_window s | _ => True end.

(** A snapshot received is no older than one received before. *)
Definition onward (s : st) (e : ev) : Prop := match e with SnapHead i => snap s <= i | _ => True end.
