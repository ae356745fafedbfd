(** * Model of destroying a B-tree and of counting its nodes.
    Source: src/include/homestore/btree/btree.ipp:61-80 (destroy_btree), detail/btree_common.ipp:23-77
    (post_order_traversal), :88-96 (do_destroy), :99-148 (compute_node_count), index/index_table.hpp:135-147.

    The tree is that of BtreeModel; a read fails for the ids in [bad].  Left out: locks (the whole tree is
    locked exclusively) and what freeing a node does to the write-back cache (WbModel). *)
From Coq Require Import ZArith NArith List Bool.
From Verif Require Import BtreeModel.
Import ListNotations.

Section D.
Variable bad : N -> bool.

Inductive status := NodeFreed | ReadFailed.


(** post_order_traversal with the callback of do_destroy; [walk] on a node answers NodeFreed or a failed read of one
    of its own children, and the ids freed, in order. *)
Fixpoint walk (t : tree) : status * list N :=
  match t with
  | Leaf id _ _ => (NodeFreed, [id])
  | Inner id _ es ed =>
      (fix entries (es : list (Z * tree)) : status * list N :=
         match es with
         | (_, t) :: r =>
             if bad (id_of t) then (ReadFailed, [])
             else let (_, l) := walk t in let (st, l') := entries r in (st, l ++ l')
         | [] =>
             match ed with
             | None => (NodeFreed, [id])
             | Some t =>
                 if bad (id_of t) then (ReadFailed, [])
                 else let (_, l) := walk t in (NodeFreed, l ++ [id])
             end
         end) es
  end.

(** destroy_btree: the status of reading the root is dropped, and a root that could not be read is used. *)
Inductive answer := Success (n : nat) | Failed (n : nat) | NullRoot.
Definition destroy (t : tree) : answer * list N :=
  if bad (id_of t) then (NullRoot, [])
  else match walk t with
       | (NodeFreed, l) => (Success (length l), l)
       | (ReadFailed, l) => (Failed (length l), l)
       end.
End D.

(** get_child_node_count: interior nodes and leaves; the leaves below a node of level 1 are not read. *)
Fixpoint count (t : tree) : nat * nat :=
  match t with
  | Leaf _ _ _ => (0, 1)%nat
  | Inner _ _ es ed =>
      if Nat.eqb (level t) 1 then (1, length es + match ed with Some _ => 1 | None => 0 end)%nat
      else
        let below := (fix entries (es : list (Z * tree)) : nat * nat :=
           match es with
           | (_, t) :: r => let (a, b) := count t in let (a', b') := entries r in (a + a', b + b')%nat
           | [] => match ed with Some t => count t | None => (0, 0)%nat end
           end) es in
        (S (fst below), snd below)
  end.
