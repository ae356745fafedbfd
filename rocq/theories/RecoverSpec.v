(** * What is expected of the index after a crash. *)
From Coq Require Import ZArith List Bool Arith.
From Verif Require Import RepairModel.
Import ListNotations.

Definition dead (d : disk) (c : nat) : bool := match d c with Some n => n_del n | None => false end.
Definition children (p : node) : list nat :=
  map snd (n_ents p) ++ match n_edge p with Some e => [e] | None => [] end.

(** The children up to the one a search for [k] takes, and those to the right of it. *)
Fixpoint split_at (l : list (Z * nat)) (edge : option nat) (k : Z) : option (list nat * list nat) :=
  match l with
  | [] => match edge with Some e => Some ([e], []) | None => None end
  | (k', c) :: r =>
      if Z.leb k k' then Some ([c], map snd r ++ match edge with Some e => [e] | None => [] end)
      else match split_at r edge k with Some (a, b) => Some (c :: a, b) | None => None end
  end.
(** Where the keys of a child are after its merge: in the nearest child to its left that was kept; if
    there is none in this node, the search goes to the first child that was kept. *)
Definition heir (d : disk) (x : list nat * list nat) : option nat :=
  match find (fun c => negb (dead d c)) (rev (fst x)) with
  | Some c => Some c
  | None => find (fun c => negb (dead d c)) (snd x)
  end.
