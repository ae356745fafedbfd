(** What quiescing promises (include/homestore/replication/repl_dev.h:646-650),
    said of what happens only: "complete all the requests that are in progress and
    start refusing new reqs"; "start accepting new reqs". *)
From Coq Require Import List.
From Verif Require Import QuiesceModel.
Import ListNotations.

Definition has_resume (l : list ev) : Prop := exists j, In (Resume j) l.
Definition has_store (l : list ev) : Prop := exists j, In (Store j) l.

(** From the return of quiesce_reqs until someone calls resume_accepting_reqs, no
    request is made (so none gets blocks). *)
Definition quiet (l : list ev) : Prop :=
  forall l1 j l2 i l3, l = l1 ++ Look j true :: l2 ++ Init i :: l3 -> has_resume l2.

(** The same with the word "the caller": until this caller resumes. *)
Definition quiet_mine (l : list ev) : Prop :=
  forall l1 j l2 i l3, l = l1 ++ Look j true :: l2 ++ Init i :: l3 -> In (Resume j) l2.

(** When quiesce_reqs returns, every request that was begun is over. *)
Definition begun (l : list ev) : nat := length (filter (fun e => match e with Enter _ => true | _ => false end) l).
Definition ended (l : list ev) : nat := length (filter (fun e => match e with Leave _ => true | _ => false end) l).
Definition complete (l : list ev) : Prop :=
  forall l1 j l2, l = l1 ++ Look j true :: l2 -> begun l1 = ended l1.

(** What is done without new requests and other calls. *)
Definition finishing (e : ev) : Prop :=
  match e with Enter _ | Store _ | Resume _ => False | _ => True end.

(** A request that comes after resume_accepting_reqs is not refused, unless
    someone quiesces again. *)
Definition accepts (l : list ev) : Prop :=
  forall l1 j l2 i l3, l = l1 ++ Resume j :: l2 ++ Check i false :: l3 -> has_store l2.
