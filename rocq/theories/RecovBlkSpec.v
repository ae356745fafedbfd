(** * Which blocks the tree uses after a crash. *)
From Coq Require Import ZArith NArith List Bool Permutation.
From Verif Require Import WbModel WbSpec DagModel DagSpec LeafCrashModel LeafCrashSpec RecovModel RecovSpec RecovBlkModel.
Import ListNotations.

(** [bm]: the stored bitmap.  A node of the start of the CP is in use unless its merge is on disk; a
    node made in the CP is iff its parent, or the superblock, names it (see C104). *)
Definition in_use (total : N) (bm : N -> bool) (isnew : nat -> bool) (d : dag) (landed : nat -> bool) (b : nat) : Prop :=
  (isnew b = false /\ N.lt (blk b) total /\ bm (blk b) = true /\ decide d landed b <> Deleted) \/ decide d landed b = Committed.

(** A CP that crashed while it was flushed: what C105 asks for. *)
Definition crashed (isnew : nat -> bool) (lvl : nat -> nat) (pos : nat -> Z) (ismeta : nat -> bool) (l : list wop)
    (rows : nat -> list nat) (w : wb) (j : list rec) (order worder : list nat) (d : dag) (evs : list ev) (s : fstate)
    (landed : nat -> bool) : Prop :=
  strict isnew lvl pos ismeta [] [] l = true /\ roots_free (wb_init isnew) l = true /\
  roots_written l /\ written l <> [] /\ rows_ok lvl isnew rows l /\
  wrunj (wb_init isnew) l = Some (w, j) /\ Permutation worder (w_list w) /\
  qd_ok evs /\ frun true (flush_init w worder) evs = Some s /\
  NoDup order /\ (forall x, In x order <-> In x (named j)) /\ rebuild ismeta j order = Some d /\
  consistent (history s) landed.

(** The stored bitmap knows the nodes of the start of the CP. *)
Definition knows_old (total : N) (bm : N -> bool) (isnew ismeta : nat -> bool) (j : list rec) : Prop :=
  forall b, In b (named j) -> ismeta b = false -> N.lt (blk b) total /\ (isnew b = false -> bm (blk b) = true).
