(** What users of node buffers rely on, in terms of the changes made by the
    operations (and nothing of the buffers). *)
From Coq Require Import List Arith Bool.
From Verif Require Import NodeBufModel.
Import ListNotations.

(** The changes in a run: block, CP of the operation, new contents. *)
Definition change : Type := nat * nat * nat.

Fixpoint hist (l : list ev) : list change :=
  match l with
  | [] => []
  | EMod _ b c v :: l => (b, c, v) :: hist l
  | _ :: l => hist l
  end.

(** Contents of [b] after the changes in [h] made by CPs up to [k]. *)
Fixpoint asof (d : nat -> nat) (h : list change) (k b : nat) : nat :=
  match h with
  | [] => d b
  | (b', c, v) :: h =>
      asof (if (b' =? b) && (c <=? k) then fun _ => v else d) h k b
  end.

(** Contents of [b] after all changes. *)
Fixpoint latest (d : nat -> nat) (h : list change) (b : nat) : nat :=
  match h with
  | [] => d b
  | (b', _, v) :: h => latest (if b' =? b then fun _ => v else d) h b
  end.

(** Changes of one block never go back to an older CP. *)
Definition ordered (h : list change) : Prop :=
  forall a m z b c v c' v',
    h = a ++ (b, c, v) :: m ++ (b, c', v') :: z -> c <= c'.
