(** * What a repaired interior node is expected to be. *)
From Coq Require Import ZArith List Bool Arith Sorted.
From Verif Require Import RepairModel.
Import ListNotations.

(** The nodes met by following the links to the right from [f], up to [e]. *)
Inductive chain (d : disk) : option nat -> list (nat * node) -> option nat -> Prop :=
| ChNil e : chain d e [] e
| ChCons i n l e : d i = Some n -> chain d (n_next n) l e -> chain d (Some i) ((i, n) :: l) e.

(** The first node not deleted to the right, after at most [h] deleted ones. *)
Inductive live_right (d : disk) : nat -> option nat -> option nat -> Prop :=
| LrNone h : live_right d h None None
| LrHere h i n : d i = Some n -> n_del n = false -> live_right d (S h) (Some i) (Some i)
| LrOver h i n r : d i = Some n -> n_del n = true -> live_right d h (n_next n) r ->
    live_right d (S h) (Some i) r.

Definition live (l : list (nat * node)) : list (nat * node) := filter (fun c => negb (n_del (snd c))) l.
(** The entry of a child in its parent: its last key; the former one if it is empty. *)
Definition entry (p : node) (c : nat * node) : Z * nat :=
  (match n_ents (snd c) with
   | [] => match find (fun e => Nat.eqb (snd e) (fst c)) (rev (n_ents p)) with Some e => fst e | None => 0%Z end
   | _ => last_key (snd c)
   end, fst c).

(** The rightmost node of a level: it has an edge, or is a leaf and has nothing to its right. *)
Definition rightmost (n : node) : bool :=
  has_edge n || (n_leaf n && match n_next n with None => true | Some _ => false end).

(** Nodes are the same but for the link to the right and the CP that wrote them. *)
Definition relinked (a b : nat * node) : Prop :=
  fst a = fst b /\ n_leaf (snd a) = n_leaf (snd b) /\ n_level (snd a) = n_level (snd b) /\
  n_ents (snd a) = n_ents (snd b) /\ n_edge (snd a) = n_edge (snd b) /\ n_del (snd a) = n_del (snd b).

(** Interior nodes [ps] in a row, [cap] entries each but for the last, which has [edge] and is
    followed by [nxt]: their entries together are [ents]. *)
Record row (d : disk) (cap level : nat) (ps : list (nat * node)) (ents : list (Z * nat))
           (edge nxt : option nat) : Prop := Row {
  row_chain : chain d (option_map fst (head ps)) ps nxt;
  row_kind : forall q, In q ps -> n_leaf (snd q) = false /\ n_level (snd q) = level /\ n_del (snd q) = false;
  row_room : forall q, In q ps -> length (n_ents (snd q)) <= cap;
  row_full : forall q, In q (removelast ps) -> length (n_ents (snd q)) = cap /\ n_edge (snd q) = None;
  row_edge : forall l q, ps = l ++ [q] -> n_edge (snd q) = edge;
  row_ents : flat_map (fun q => n_ents (snd q)) ps = ents }.

(** ** Search: which child, and a whole descent. *)
Fixpoint route (l : list (Z * nat)) (edge : option nat) (k : Z) : option nat :=
  match l with
  | [] => edge
  | (k', c) :: r => if Z.leb k k' then Some c else route r edge k
  end.
(** The value of [k] found from node [i], [h] levels above the leaves. *)
Fixpoint lookup (h : nat) (d : disk) (i : nat) (k : Z) : option nat :=
  match d i with
  | None => None
  | Some n =>
      match h with
      | O => match find (fun e => Z.eqb (fst e) k) (n_ents n) with Some e => Some (snd e) | None => None end
      | S h' => match route (n_ents n) (n_edge n) k with Some c => lookup h' d c k | None => None end
      end
  end.
(** The value of [k] in a row of leaves. *)
Definition value_in (l : list (nat * node)) (k : Z) : option nat :=
  match find (fun e => Z.eqb (fst e) k) (flat_map (fun c => n_ents (snd c)) l) with
  | Some e => Some (snd e) | None => None
  end.

Definition first_child (p : node) : option nat :=
  match n_ents p with (_, c) :: _ => Some c | [] => if has_edge p then n_edge p else None end.

Definition was_child (p : node) (i : nat) : bool := existsb (fun e => Nat.eqb (snd e) i) (n_ents p).
(** A child on the way that becomes an entry. *)
Definition inner (p : node) (c : nat * node) : Prop :=
  rightmost (snd c) = false /\ (n_ents (snd c) <> [] \/ was_child p (fst c) = true).

(** Ascending keys. *)
Definition asc (l : list (Z * nat)) : Prop := StronglySorted (fun a b => (fst a < fst b)%Z) l.
(** [n] made to reach up to [last]. *)
Definition raised (last : Z) (n : node) : node :=
  if Z.ltb (last_key n) last then set_ents (set_last_key last (n_ents n)) n else n.

(** Two disks with the same nodes: links may differ, nothing else. *)
Definition same_nodes (d d' : disk) : Prop := forall i,
  match d i, d' i with
  | Some a, Some b => relinked (i, a) (i, b)
  | None, None => True
  | _, _ => False
  end.
