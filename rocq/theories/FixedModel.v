(** * Model of the fixed-size (one block at a time) allocator.
    Source: src/lib/blkalloc/fixed_blk_allocator.cpp and .h.
    The MPMC queue is a list; every call is one atomic step.  [sizeGuess] is the exact
    length.  The DBG asserts on a full queue are not compiled in release builds: a push
    on a full queue is lost.  The flip point is not modelled. *)
From Coq Require Import NArith List Lia Bool.
Import ListNotations.
Local Open Scope N_scope.

(** [m_free_blk_q], [m_reserved_blks], [m_state == ACTIVE], fixed_blk_allocator.h:52-57;
    the disk bitmap of the base class, bitmap_blk_allocator.h:125. *)
Record fixed := Fixed { f_total : N; f_q : list N; f_resv : list N; f_active : bool; f_bm : N -> bool; f_persist : bool }.

Definition mem (b : N) (l : list N) : bool := existsb (N.eqb b) l.
Definition drop (b : N) (l : list N) : list N := filter (fun x => negb (b =? x)) l.
Fixpoint upto (start : N) (n : nat) : list N :=
  match n with O => [] | S n' => start :: upto (start + 1) n' end.

(** fixed_blk_allocator.cpp:28-51, [load] and [init_portion]: the portions together cover
    the blocks in order. *)
Definition load (total : N) (persist : bool) (bm : N -> bool) : fixed :=
  Fixed total (filter (fun b => negb persist || negb (bm b)) (upto 0 (N.to_nat total))) [] false bm persist.

(** :59-74, the retry loop of [alloc]. *)
Fixpoint pop (q resv : list N) (active : bool) : option N * list N * list N :=
  match q with
  | [] => (None, [], resv)
  | b :: r => if negb active && mem b resv then pop r (drop b resv) active else (Some b, r, resv)
  end.

(** :55-75, [alloc]; [None] is SPACE_FULL. *)
Definition alloc (s : fixed) : fixed * option N :=
  match pop (f_q s) (f_resv s) (f_active s) with
  | (o, q, rv) => (Fixed (f_total s) q rv (f_active s) (f_bm s) (f_persist s), o)
  end.

(** :79-83, [reserve_on_cache]; m_reserved_blks is a set. *)
Definition reserve_on_cache (s : fixed) (b : N) : fixed :=
  if f_active s then s
  else Fixed (f_total s) (f_q s) (if mem b (f_resv s) then f_resv s else b :: f_resv s) (f_active s) (f_bm s) (f_persist s).

(** :89-96, the rotation loop; [n] is the number of turns left. *)
Fixpoint rotate (n : nat) (q resv : list N) : list N :=
  match n with
  | O => q
  | S n' => match q with
            | [] => []
            | b :: r => rotate n' (if mem b resv then r else r ++ [b]) resv
            end
  end.

(** :85-101, [recovery_completed]. *)
Definition recovery_completed (s : fixed) : fixed :=
  Fixed (f_total s) (match f_resv s with [] => f_q s | _ => rotate (length (f_q s)) (f_q s) (f_resv s) end)
        [] true (f_bm s) (f_persist s).

(** bitmap_blk_allocator.cpp:129-150, [free_on_disk] of one block. *)
Definition reset_bit (bm : N -> bool) (b : N) : N -> bool := fun x => if x =? b then false else bm x.

(** fixed_blk_allocator.cpp:103-117, [free]. *)
Definition free (s : fixed) (b : N) : fixed :=
  Fixed (f_total s) (if N.of_nat (length (f_q s)) <? f_total s then f_q s ++ [b] else f_q s)
        (if f_active s then f_resv s else drop b (f_resv s)) (f_active s)
        (if f_persist s then reset_bit (f_bm s) b else f_bm s) (f_persist s).
