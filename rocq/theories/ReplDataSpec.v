(** * What deliveries of data must do. *)
From Coq Require Import NArith List Bool.
From Verif Require Import ReplDataModel.
Import ListNotations.

(** At the beginning: [n] deliveries and [m] error handlers, in any order. *)
Definition begins (l : list pc) : Prop := forall p, In p l -> p = D0 \/ p = E0.
Definition deliveries (l : list pc) : Prop := In D0 l.
Definition accepted (l : list pc) : nat := length (filter (fun p => match p with DAcc => true | _ => false end) l).
Definition finished (l : list pc) : Prop := forall p, In p l -> p = DAcc \/ p = DRej \/ p = EDone.
