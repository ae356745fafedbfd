(** What the operations on the entries of a B-tree node are for: a strictly
    sorted list of keys with values. *)
From Coq Require Import ZArith NArith List Bool Sorting.Sorted.
From Verif Require Import BtNodeModel.
Import ListNotations.
Local Open Scope Z_scope.

(** Keys ascend strictly from slot to slot. *)
Definition sorted {A} (es : list (Z * A)) : Prop :=
  StronglySorted Z.lt (map fst es).

(** A key lies in a range. *)
Definition in_range (r : krange) (k : Z) : bool :=
  (if r_sincl r then r_start r <=? k else r_start r <? k)
  && (if r_eincl r then k <=? r_end r else k <? r_end r).

(** The value under a key in an association list. *)
Fixpoint assoc {A} (es : list (Z * A)) (k : Z) : option A :=
  match es with
  | [] => None
  | (k', v) :: r => if k' =? k then Some v else assoc r k
  end.

(** What a put of one key makes of the map, and what it answers. *)
Definition put_spec (kd : pkind) (v : N) (f : pfilter) (k : Z)
    (cur : option N) : status * option N :=
  match cur with
  | Some v0 =>
      let keep :=
        match f with
        | Some g => match g k v0 v with DReplace => false | _ => true end
        | None => false
        end in
      if keep then (StFiltered, cur)
      else match kd with
           | PInsert => (StExists, cur)
           | _ => (StSuccess, Some v)
           end
  | None =>
      match kd with
      | PUpdate => (StNotFound, None)
      | _ => (StSuccess, Some v)
      end
  end.
