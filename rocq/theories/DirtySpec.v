(** What a history says about dirty memory, without the state of the program. *)
From Coq Require Import List ZArith Lia Bool.
From Verif Require Import DirtyModel.
Import ListNotations.
Open Scope Z_scope.

Definition pushes (l : list ev) : Z :=
  Z.of_nat (length (filter (fun e => match e with Push _ => true | _ => false end) l)).
Definition counts (l : list ev) : Z :=
  Z.of_nat (length (filter (fun e => match e with Count _ => true | _ => false end) l)).
Definition flushed (l : list ev) : Z :=
  Z.of_nat (length (filter (fun e => match e with Done => true | _ => false end) l)).

(** Bytes of buffers that are dirtied and not yet flushed. *)
Definition dirty (size : Z) (l : list ev) : Z := size * (pushes l - flushed l).

(** No thread is between putting a buffer on the list and counting it. *)
Definition settled (l : list ev) : Prop := pushes l = counts l.
