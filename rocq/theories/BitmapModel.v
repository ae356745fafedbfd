(** * Model of the persisted allocation bitmap.
    Source: src/lib/blkalloc/bitmap_blk_allocator.cpp and .h.
    The bitmap is a function from block number to bit.  The checkpoint write is two
    steps: everything up to [acquire_underlying_buffer], and everything from the end of
    the superblock write on.  Commits and frees may fall between them.  The RCU
    synchronisation makes each of them fall entirely before, between or after.
    Portion locks and the non-persistent mode (which does nothing) are not modelled. *)
From Coq Require Import NArith List Lia Bool.
From Verif Require Import ExtSpec.
Import ListNotations.
Local Open Scope N_scope.

Definition bits := N -> bool.
Fixpoint range (start : N) (n : nat) : list N :=
  match n with O => [] | S n' => start :: range (start + 1) n' end.
Definition blks_of (x : ext) : list N := range (fst x) (N.to_nat (snd x)).

(** sisl::Bitset set_bits, reset_bits, is_bits_reset on an extent. *)
Definition set_bits (bm : bits) (x : ext) : bits := fun b => if inside b x then true else bm b.
Definition reset_bits (bm : bits) (x : ext) : bits := fun b => if inside b x then false else bm b.
Definition is_reset (bm : bits) (x : ext) : bool := forallb (fun b => negb (bm b)) (blks_of x).

(** bitmap_blk_allocator.h:123-126: [m_disk_bm], [m_alloc_blkid_list] ([None] is
    nullptr), [m_is_disk_bm_dirty]; the serialized copy held by a running flush; the
    bitmap in the superblock. *)
Record bst := Bst { b_bm : bits; b_list : option (list ext); b_dirty : bool; b_copy : option bits; b_stored : option bits }.

(** bitmap_blk_allocator.cpp:97-121: set each piece, release assert that it is clear. *)
Fixpoint set_pieces (bm : bits) (l : list ext) : option bits :=
  match l with
  | [] => Some bm
  | x :: r => if is_reset bm x then set_pieces (set_bits bm x) r else None
  end.

(** :85-127, [reserve_on_disk] of a block id with the given pieces, after recovery.
    The list stores MultiBlkId but [push_back] converts from BlkId, so only the first
    piece is kept. *)
Definition reserve_on_disk (s : bst) (pieces : list ext) : option bst :=
  match b_list s with
  | Some l => Some (Bst (b_bm s) (Some (l ++ firstn 1 pieces)) (b_dirty s) (b_copy s) (b_stored s))
  | None => match set_pieces (b_bm s) pieces with
            | Some bm => Some (Bst bm None true (b_copy s) (b_stored s))
            | None => None
            end
  end.

(** :129-150, [free_on_disk]. *)
Definition free_on_disk (s : bst) (pieces : list ext) : bst :=
  Bst (fold_left reset_bits pieces (b_bm s)) (b_list s) (b_dirty s) (b_copy s) (b_stored s).

(** :57-61 and :152-163, first half of [cp_flush]; [None]: release assert on a second
    acquire. *)
Definition flush_begin (s : bst) : option bst :=
  if b_dirty s then
    match b_list s with
    | None => Some (Bst (b_bm s) (Some []) (b_dirty s) (Some (b_bm s)) (b_stored s))
    | Some _ => None
    end
  else Some s.

(** :172-176, re-applying the list. *)
Fixpoint reapply (s : bst) (l : list ext) : option bst :=
  match l with
  | [] => Some s
  | x :: r => match reserve_on_disk s [x] with Some s' => reapply s' r | None => None end
  end.

(** :62-69 and :165-179, second half: the superblock is written, the flag cleared, the
    list removed and re-applied. *)
Definition flush_end (s : bst) : option bst :=
  match b_copy s, b_list s with
  | Some c, Some l => reapply (Bst (b_bm s) None false None (Some c)) l
  | _, _ => Some s
  end.

(** :23-45: a fresh chunk; :47-55: a bitmap found on disk.  The flag starts true. *)
Definition fresh : bst := Bst (fun _ => false) None true None None.
Definition recovered (bm : bits) : bst := Bst bm None true None (Some bm).
