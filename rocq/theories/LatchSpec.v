(** Running out of space on a follower does not end its process. *)
From Coq Require Import List.
From Verif Require Import LatchModel.
Import ListNotations.

(** No log entry is rolled back and no leadership asked for while the listener deals
    with the lack of space. *)
Fixpoint calm (busy : bool) (l : list ev) : Prop :=
  match l with
  | [] => True
  | Batch _ _ _ (NoSpace _) :: l => calm true l
  | Resume :: l => calm false l
  | Append true _ :: l => busy = false /\ calm busy l
  | Lead :: l => busy = false /\ calm busy l
  | _ :: l => calm busy l
  end.

Definition rolls_back (l : list ev) : Prop := exists ok, In (Append true ok) l.
Definition asks_lead (l : list ev) : Prop := In Lead l.
