(** What a B-tree is for: a map from keys to values. *)
From Coq Require Import ZArith NArith List Bool.
From Verif Require Import BtNodeModel BtNodeSpec.
Import ListNotations.

Inductive op :=
| OPut (kd : pkind) (k : Z) (v : N) (f : pfilter)
| OGet (k : Z)
| ORemove (k : Z).

(** What an operation answers: a status and the value that was there. *)
Inductive out :=
| RPut (st : status) (old : option N)
| RGet (v : option N)
| RRemove (st : status) (old : option N).

Definition fmap := Z -> option N.
Definition fset (m : fmap) (k : Z) (v : option N) : fmap :=
  fun k' => if (k' =? k)%Z then v else m k'.

Definition sstep (m : fmap) (o : op) : fmap * out :=
  match o with
  | OPut kd k v f =>
      let '(st, new) := put_spec kd v f k (m k) in
      (fset m k new, RPut st (m k))
  | OGet k => (m, RGet (m k))
  | ORemove k =>
      (fset m k None,
       RRemove (match m k with Some _ => StSuccess | None => StNotFound end) (m k))
  end.

Fixpoint srun (m : fmap) (ops : list op) : list out :=
  match ops with
  | [] => []
  | o :: r => let '(m', x) := sstep m o in x :: srun m' r
  end.

(** The map at the end. *)
Definition send (m : fmap) (ops : list op) : fmap :=
  fold_left (fun m o => fst (sstep m o)) ops m.
