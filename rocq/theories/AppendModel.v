(** * Model of the append-only block allocator.
    Source: src/lib/blkalloc/append_blk_allocator.cpp and append_blk_allocator.h.
    Logging, flip points and get_status are not modelled.  The superblock write
    ([m_sb.write()]) is atomic and durable when it returns. *)
From Coq Require Import NArith List Lia Bool.
Import ListNotations.
Local Open Scope N_scope.

(** [blk_num_t] is uint32_t: the atomics wrap. *)
Definition w32 (n : N) : N := n mod 4294967296.

(** append_blk_allocator.h:125-131.  [a_disk] is the last superblock written
    (commit_offset, freeable_nblks), [None] before the first checkpoint. *)
Record ast := Ast { a_total : N; a_last : N; a_commit : N; a_freeable : N; a_dirty : bool; a_disk : option (N * N) }.

(** append_blk_allocator.cpp:25-47, constructor with need_format. *)
Definition fresh_alloc (total : N) : ast := Ast total 0 0 0 false None.

(** :178-180, [available_blks] (32-bit subtraction). *)
Definition available_blks (s : ast) : N := w32 (a_total s + 4294967296 - a_last s).

(** :71-74, available blocks after the optional reservation hint. *)
Definition avail_after_reserve (s : ast) (reserved : option N) : N :=
  let a := available_blks s in
  match reserved with
  | Some r => if r <? a then a - r else 0
  | None => a
  end.

Inductive alloc_result := AllocOk (start len : N) | SpaceFull | AllocFailed.

(** :70-86, the check part of [alloc]; [None] means go on.  [max_blks_per_blkid]
    is 65535 (blk.h:36). *)
Definition alloc_check (s : ast) (nblks : N) (reserved : option N) : option alloc_result :=
  if avail_after_reserve s reserved <? nblks then Some SpaceFull
  else if 65535 <? nblks then Some AllocFailed
  else None.

(** :89, the [fetch_add]. *)
Definition alloc_bump (s : ast) (nblks : N) : ast * alloc_result :=
  (Ast (a_total s) (w32 (a_last s + nblks)) (a_commit s) (a_freeable s) (a_dirty s) (a_disk s),
   AllocOk (a_last s) nblks).

(** :70-95, [alloc] run without interference. *)
Definition alloc (s : ast) (nblks : N) (reserved : option N) : ast * alloc_result :=
  match alloc_check s nblks reserved with
  | Some r => (s, r)
  | None => alloc_bump s nblks
  end.

(** :98-114, [reserve_on_disk]; the compare-exchange loop is one atomic maximum. *)
Definition reserve_on_disk (s : ast) (start len : N) : ast :=
  if start + len <=? a_commit s then s
  else Ast (a_total s) (a_last s) (start + len) (a_freeable s) true (a_disk s).

(** :118-125, [reserve_on_cache]. *)
Definition reserve_on_cache (s : ast) (start len : N) : ast :=
  if start + len <=? a_last s then s
  else Ast (a_total s) (start + len) (a_commit s) (a_freeable s) (a_dirty s) (a_disk s).

(** :127-144, [cp_flush]. *)
Definition cp_flush (s : ast) : ast :=
  if a_dirty s then Ast (a_total s) (a_last s) (a_commit s) (a_freeable s) false (Some (a_commit s, a_freeable s))
  else s.

(** :147-150, [free]. *)
Definition free (s : ast) (len : N) : ast :=
  Ast (a_total s) (a_last s) (a_commit s) (w32 (a_freeable s + len)) true (a_disk s).

(** Crash and restart: :25-47 without need_format, then :49-59 if a superblock exists. *)
Definition restart (s : ast) : ast :=
  match a_disk s with
  | None => Ast (a_total s) 0 0 0 false None
  | Some (c, f) => Ast (a_total s) c c f false (Some (c, f))
  end.

(** Recovery replay of one committed extent, src/lib/device/virtual_dev.cpp
    [commit_blk]: reserve_on_cache and reserve_on_disk during recovery. *)
Definition replay1 (s : ast) (x : N * N) : ast := reserve_on_disk (reserve_on_cache s (fst x) (snd x)) (fst x) (snd x).
Definition replay (s : ast) (l : list (N * N)) : ast := fold_left replay1 l s.

(** ** Concurrent callers: each [alloc] is a check step and a bump step. *)
Record cst := Cst { c_ast : ast; c_passed : list (nat * N); c_out : list (nat * (N * N)) }.
Inductive cop := Check (t : nat) (nblks : N) (reserved : option N) | Bump (t : nat).

Fixpoint take (t : nat) (l : list (nat * N)) : option (N * list (nat * N)) :=
  match l with
  | [] => None
  | (t', n) :: r => if Nat.eqb t t' then Some (n, r)
                    else match take t r with Some (m, r') => Some (m, (t', n) :: r') | None => None end
  end.

(** One step of one thread.  A thread whose check fails returns SPACE_FULL and
    leaves no trace; [Bump t] without an earlier successful check does nothing. *)
Definition cstep (s : cst) (o : cop) : cst :=
  match o with
  | Check t n r => match alloc_check (c_ast s) n r with
                   | Some _ => s
                   | None => Cst (c_ast s) ((t, n) :: c_passed s) (c_out s)
                   end
  | Bump t => match take t (c_passed s) with
              | None => s
              | Some (n, rest) =>
                  match alloc_bump (c_ast s) n with
                  | (a, AllocOk st len) => Cst a rest (c_out s ++ [(t, (st, len))])
                  | (a, _) => s
                  end
              end
  end.
Definition crun (s : cst) (l : list cop) : cst := fold_left cstep l s.
