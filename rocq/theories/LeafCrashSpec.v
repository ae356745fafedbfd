(** * What is expected of the leaves after a crash.
    "Leaf": a node of level [v]; everything holds for each level. *)
From Coq Require Import ZArith List Bool Arith.
From Verif Require Import WbModel WbSpec DagModel DagSpec LeafCrashModel.
Import ListNotations.

(** Following [next_bnode] from [a] gives the nodes [l] and then [e]. *)
Inductive path (m : mem_t) : option nat -> list nat -> option nat -> Prop :=
| PNil e : path m e [] e
| PCons i l e : path m (n_next (m i)) l e -> path m (Some i) (i :: l) e.

(** The value of a key in a row of leaves. *)
Definition val (m : mem_t) (l : list nat) (k : Z) : option nat :=
  match find (fun e => Z.eqb (fst e) k) (flat_map (fun i => n_ents (m i)) l) with
  | Some e => Some (snd e) | None => None
  end.

(** ** Legal use by the B-tree.

    A layout lists the leaves from left to right, each with the largest key the tree routes to it
    ([None]: no bound, for the last one). *)
Definition layout := list (nat * option Z).
Definition ids (L : layout) : list nat := map fst L.
Definition over (lo : option Z) (k : Z) : Prop := match lo with Some x => (x < k)%Z | None => True end.
Definition upto (hi : option Z) (k : Z) : Prop := match hi with Some x => (k <= x)%Z | None => True end.
(** Every leaf holds only keys routed to it; bounds ascend; the last leaf has no bound. *)
Fixpoint fits (m : mem_t) (lo : option Z) (L : layout) : Prop :=
  match L with
  | [] => True
  | (i, hi) :: r =>
      (forall k v, In (k, v) (n_ents (m i)) -> over lo k /\ upto hi k) /\
      (r = [] <-> hi = None) /\
      (forall x, hi = Some x -> over lo x) /\ fits m hi r
  end.
(** The leaf the tree routes a key to. *)
Definition uptob (hi : option Z) (k : Z) : bool := match hi with Some x => Z.leb k x | None => true end.
Definition home (L : layout) (k : Z) : option nat := option_map fst (find (fun x => uptob (snd x) k) L).
Definition end_bound (L : layout) : option Z := last (map snd L) None.

(** The layout after an operation.  A split or merge replaces a row of leaves by another one that
    ends at the same bound. *)
Inductive lstep (v : nat) (lvl : nat -> nat) (isnew : nat -> bool) (m : mem_t) : layout -> lop -> layout -> Prop :=
| SPut L c es : In c (ids L) -> fits (lexec m (LPut c es)) None L -> lstep v lvl isnew m L (LPut c es) L
| STx A c x F B p es x' N news freeds :
    freeds = ids F -> map fst news = ids N ->
    end_bound ((c, x) :: F) = end_bound ((c, x') :: N) ->
    fits (lexec m (LTx p c es news freeds)) None (A ++ (c, x') :: N ++ B) ->
    lstep v lvl isnew m (A ++ (c, x) :: F ++ B) (LTx p c es news freeds) (A ++ (c, x') :: N ++ B)
| SOther L o :
    match o with
    | OWrite b => lvl b <> v
    | OTransact _ c _ _ => lvl c <> v
    | ORoot _ r => lvl r <> v \/ isnew r = false
    | OFree b => lvl b <> v
    end -> lstep v lvl isnew m L (LOther o) L.
Inductive lsteps (v : nat) (lvl : nat -> nat) (isnew : nat -> bool) : mem_t -> layout -> list lop -> layout -> Prop :=
| SNil m L : lsteps v lvl isnew m L [] L
| SCons m L o L1 l L2 : lstep v lvl isnew m L o L1 -> lsteps v lvl isnew (lexec m o) L1 l L2 ->
    lsteps v lvl isnew m L (o :: l) L2.

(** The leaves at the start of a CP. *)
Definition start_ok (v : nat) (isnew : nat -> bool) (lvl : nat -> nat) (m : mem_t) (L : layout) : Prop :=
  L <> [] /\ NoDup (ids L) /\ path m (head (ids L)) (ids L) None /\ fits m None L /\
  forall i, In i (ids L) -> isnew i = false /\ lvl i = v.

(** The writes that reached the disk: at least those completed, at most those issued. *)
Definition consistent (h : list fev) (landed : nat -> bool) : Prop :=
  forall b, (In (Done b) h -> landed b = true) /\ (landed b = true -> In (Issue b) h).
