(** * Model of deferred frees on a virtual device.
    Source: src/lib/device/virtual_dev.cpp [free_blk] (343-370) and [cp_flush] (740-769),
    virtual_dev.hpp:330-336 [VDevCPContext].
    The allocators of all chunks are one set of available blocks; a block number stands
    for a (chunk, block) pair.  An allocation may return any available extent.  The
    bitmap write of all chunks is one step; its content is modelled in BitmapModel. *)
From Coq Require Import NArith List Lia Bool.
From Verif Require Import ExtSpec.
Import ListNotations.
Local Open Scope N_scope.

(** [v_avail]: what the allocators consider free.  [v_ctx c]: m_free_blkid_list of
    checkpoint [c].  [v_cur]: the current checkpoint. *)
Record vst := Vst { v_avail : N -> bool; v_ctx : nat -> list ext; v_cur : nat }.

Definition put_ctx (f : nat -> list ext) (c : nat) (l : list ext) : nat -> list ext :=
  fun k => if Nat.eqb k c then l else f k.

(** BlkAllocator::free of one extent. *)
Definition allocator_free (av : N -> bool) (x : ext) : N -> bool := fun b => inside b x || av b.
Definition allocator_take (av : N -> bool) (x : ext) : N -> bool := fun b => negb (inside b x) && av b.

(** virtual_dev.cpp:343-370, [free_blk] for every piece. *)
Definition free_blk1 (append : bool) (s : vst) (vctx : option nat) (free_now : bool) (x : ext) : vst :=
  match vctx with
  | Some c => if negb append && negb free_now
              then Vst (v_avail s) (put_ctx (v_ctx s) c (v_ctx s c ++ [x])) (v_cur s)
              else Vst (allocator_free (v_avail s) x) (v_ctx s) (v_cur s)
  | None => Vst (allocator_free (v_avail s) x) (v_ctx s) (v_cur s)
  end.
Definition free_blk (append : bool) (s : vst) (vctx : option nat) (free_now : bool) (pieces : list ext) : vst :=
  fold_left (fun s x => free_blk1 append s vctx free_now x) pieces s.

(** The two parts of :740-769, [cp_flush]: [FlushBitmaps] (744-758) then [ReleaseFrees]
    (762-768).  The list is not cleared; the context dies with the checkpoint. *)
Inductive flush_part := FlushBitmaps | ReleaseFrees.
Definition cp_flush_parts : list flush_part := [FlushBitmaps; ReleaseFrees].
Definition flush_part_step (s : vst) (c : nat) (p : flush_part) : vst :=
  match p with
  | FlushBitmaps => s
  | ReleaseFrees => Vst (fold_left allocator_free (v_ctx s c) (v_avail s)) (v_ctx s) (v_cur s)
  end.
