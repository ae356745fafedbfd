(** * What is expected of the walk over the links after a crash. *)
From Coq Require Import ZArith List Bool Arith.
From Verif Require Import WbModel WbSpec DagModel DagSpec RecovModel.
Import ListNotations.

(** [b] was to be written before [u], over any number of links. *)
Inductive under (w : wb) (gone : nat -> bool) : nat -> nat -> Prop :=
| UStep b u : next_up w gone b u -> under w gone b u
| UTrans b u v : next_up w gone b u -> under w gone u v -> under w gone b v.

(** ** Legal use by the B-tree: the nodes of a level stand in a row, and a split or merge replaces a
    node and those following it. *)
Section Rows.
Variable lvl : nat -> nat.
Variable isnew : nat -> bool.
(** [None]: [c] and the freed nodes are not next to each other. *)
Fixpoint strip (F row : list nat) : option (list nat) :=
  match F, row with
  | [], r => Some r
  | f :: F', x :: r => if Nat.eqb f x then strip F' r else None
  | _ :: _, [] => None
  end.
Fixpoint row_tx (c : nat) (N F row : list nat) : option (list nat) :=
  match row with
  | [] => None
  | x :: r => if Nat.eqb x c then option_map (fun B => c :: N ++ B) (strip F r)
              else option_map (cons x) (row_tx c N F r)
  end.
(** A new root stands alone on a level that was empty. *)
Definition row_op (v : nat) (row : list nat) (o : wop) : option (list nat) :=
  match o with
  | OTransact _ c N F => if Nat.eqb (lvl c) v then row_tx c N F row else Some row
  | ORoot _ r => if Nat.eqb (lvl r) v && isnew r
                 then match row with [] => Some [r] | _ :: _ => None end else Some row
  | _ => Some row
  end.
Fixpoint row_run (v : nat) (row : list nat) (l : list wop) : option (list nat) :=
  match l with
  | [] => Some row
  | o :: l' => match row_op v row o with Some row' => row_run v row' l' | None => None end
  end.
(** [rows]: the nodes of each level at the start of the CP. *)
Definition rows_ok (rows : nat -> list nat) (l : list wop) : Prop := forall v,
  NoDup (rows v) /\ (forall i, In i (rows v) -> isnew i = false /\ lvl i = v) /\ row_run v (rows v) l <> None.
End Rows.

(** [b] is given to repair_index_node. *)
Definition mended (log : list revent) (b : nat) : Prop := In (Repair b) log \/ In (Pruned b) log.
