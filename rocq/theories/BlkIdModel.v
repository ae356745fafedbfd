(** * Model of block identifiers.
    Source: src/include/homestore/blk.h and src/lib/blkalloc/blk.cpp. *)
From Coq Require Import NArith List Lia.
From Verif Require Import Base.
Import ListNotations.
Local Open Scope N_scope.

(** blk.h:47-51, [BlkId::serialized].  Field values are unbounded [N] here; the
    bit-field widths are applied by [mk_serialized], the only constructor used. *)
Record serialized := Ser { m_is_multi : N; m_blk_num : N; m_nblks : N; m_chunk_num : N }.

(** blk.h:54-55, constructor of [serialized].  Arguments arrive as [bool],
    [uint32_t], [uint16_t], [uint16_t] (conversions truncate); storing a 32-bit
    block number in the 31-bit field [m_blk_num] keeps its low 31 bits. *)
Definition mk_serialized (is_multi : bool) (blk_num nblks chunk : N) : serialized :=
  Ser (if is_multi then 1 else 0) (blk_num mod 2 ^ 31) (nblks mod 2 ^ 16) (chunk mod 2 ^ 16).

(** blk.cpp:25, [BlkId(blk_num, nblks, chunk_num)]. *)
Definition mk_blkid (blk_num nblks chunk : N) : serialized := mk_serialized false blk_num nblks chunk.

(** blk.cpp:27, [to_integer]: the 64-bit image of the packed struct.  Bit-fields
    are allocated from the least significant bit (System V x86-64 ABI). *)
Definition to_integer (s : serialized) : N :=
  m_is_multi s + 2 * m_blk_num s + 2 ^ 32 * m_nblks s + 2 ^ 48 * m_chunk_num s.

(** blk.cpp:20-23, [BlkId(uint64_t)]: reinterpret 64 bits as the struct.  The
    debug-only check that the multi flag is clear is not part of the model. *)
Definition of_integer (i : N) : serialized :=
  let i := i mod 2 ^ 64 in
  Ser (i mod 2) (i / 2 mod 2 ^ 31) (i / 2 ^ 32 mod 2 ^ 16) (i / 2 ^ 48 mod 2 ^ 16).

(** blk.cpp:41, [BlkId::is_valid]. *)
Definition is_valid (s : serialized) : bool := 0 <? m_nblks s.

(** blk.cpp:39, [BlkId::invalidate]. *)
Definition invalidate (s : serialized) : serialized :=
  Ser (m_is_multi s) (m_blk_num s) 0 (m_chunk_num s).

(** blk.cpp:47-67, [BlkId::compare]; the result -1/0/1 is [Lt]/[Eq]/[Gt]. *)
Definition compare (one two : serialized) : comparison :=
  if m_chunk_num one <? m_chunk_num two then Lt
  else if m_chunk_num two <? m_chunk_num one then Gt
  else if m_blk_num one <? m_blk_num two then Lt
  else if m_blk_num two <? m_blk_num one then Gt
  else if m_nblks one <? m_nblks two then Lt
  else if m_nblks two <? m_nblks one then Gt
  else Eq.

(** blk.h:98-103, [chain_blkid]: 32-bit block number, 16-bit count. *)
Record chain_blkid := Chain { c_blk_num : N; c_nblks : N }.

(** blk.h:93-106, [MultiBlkId].  [n_addln_piece] and the first [n_addln_piece]
    array cells are the list [addln]; cells beyond are never read by the code and
    are not modelled. *)
Record multi := Multi { base : serialized; addln : list chain_blkid }.

(** blk.h:94. *)
Definition max_addln_pieces : nat := 5.

(** blk.cpp:70, default constructor. *)
Definition multi_empty : multi := Multi (Ser 1 0 0 0) [].

(** blk.cpp:79-91, [MultiBlkId::add].  A failed RELEASE_ASSERT (other chunk, or
    no room) terminates the process: [None]. *)
Definition multi_add (m : multi) (blk_num nblks chunk : N) : option multi :=
  if is_valid (base m) then
    if negb (m_chunk_num (base m) =? chunk mod 2 ^ 16) then None
    else if Nat.leb max_addln_pieces (length (addln m)) then None
    else Some (Multi (base m) (addln m ++ [Chain (blk_num mod 2 ^ 32) (nblks mod 2 ^ 16)]))
  else Some (Multi (mk_serialized true blk_num nblks chunk) (addln m)).

(** blk.cpp:121, [num_pieces]. *)
Definition num_pieces (m : multi) : nat :=
  if is_valid (base m) then S (length (addln m)) else 0%nat.

(** blk.cpp:123, [has_room]. *)
Definition has_room (m : multi) : bool := Nat.ltb (length (addln m)) max_addln_pieces.

(** blk.h:144-157, [iterator::next]: one call from position [pos]; returns the
    id and the new position. *)
Definition iter_next (m : multi) (pos : nat) : option serialized * nat :=
  if Nat.eqb pos 0 then
    ((if is_valid (base m)
      then Some (mk_blkid (m_blk_num (base m)) (m_nblks (base m)) (m_chunk_num (base m)))
      else None), 1%nat)
  else if Nat.ltb pos (num_pieces m) then
    match nth_error (addln m) (pos - 1) with
    | Some c => (Some (mk_blkid (c_blk_num c) (c_nblks c) (m_chunk_num (base m))), S pos)
    | None => (None, pos)   (* cannot happen: pos < num_pieces *)
    end
  else (None, pos).

(** blk.cpp:139-142, the idiom [while (auto b = it.next())].  [fuel] bounds the
    number of calls; [max_addln_pieces + 2] always suffices (theorem c03). *)
Fixpoint iter_all (fuel : nat) (m : multi) (pos : nat) : list serialized :=
  match fuel with
  | O => []
  | S f => match iter_next m pos with
           | (Some b, pos') => b :: iter_all f m pos'
           | (None, _) => []
           end
  end.

Definition iterate (m : multi) : list serialized := iter_all (max_addln_pieces + 2) m 0.

(** blk.cpp:137-144, [MultiBlkId::blk_count]: accumulates in a [uint16_t]. *)
Definition multi_blk_count (m : multi) : N :=
  fold_left (fun acc b => (acc + m_nblks b) mod 2 ^ 16) (iterate m) 0.

(** blk.cpp:146-149, [to_single_blkid]; debug-only assert on piece count dropped. *)
Definition to_single_blkid (m : multi) : serialized :=
  mk_blkid (m_blk_num (base m)) (multi_blk_count m) (m_chunk_num (base m)).

(** blk.cpp:95-99, [serialized_size]: [sizeof(BlkId)] = 8, [sizeof(chain_blkid)] = 6. *)
Definition serialized_size (m : multi) : nat :=
  match addln m with
  | [] => 8
  | l => 8 + 2 + length l * 6
  end.

(** blk.cpp:113-117. *)
Definition expected_serialized_size (pieces : nat) : nat :=
  if Nat.ltb 1 pieces then 8 + 2 + (pieces - 1) * 6 else 8.

(** Memory image of a [chain_blkid] (blk.h:98-101). *)
Definition chain_bytes (c : chain_blkid) : list N :=
  le_bytes 4 (c_blk_num c) ++ le_bytes 2 (c_nblks c).

(** blk.cpp:93, [MultiBlkId::serialize]: the first [serialized_size] bytes of the
    packed object (base, piece count, pieces). *)
Definition multi_serialize (m : multi) : list N :=
  firstn (serialized_size m)
    (le_bytes 8 (to_integer (base m))
     ++ le_bytes 2 (N.of_nat (length (addln m)))
     ++ flat_map chain_bytes (addln m)).

(** Reading [n] packed [chain_blkid]s from a byte buffer; [None] when the buffer
    is too short, i.e. the C++ would read past the blob (undefined behaviour). *)
Fixpoint read_chain (n : nat) (b : list N) : option (list chain_blkid) :=
  match n with
  | O => Some []
  | S n' =>
      if Nat.ltb (length b) 6 then None
      else match read_chain n' (skipn 6 b) with
           | Some l => Some (Chain (le_val (firstn 4 b)) (le_val (firstn 2 (skipn 4 b))) :: l)
           | None => None
           end
  end.

(** blk.cpp:101-111, [MultiBlkId::deserialize].  [None]: undefined behaviour, the
    blob is shorter than what is read, or the stored piece count exceeds the
    5-cell array that is copied into. *)
Definition multi_deserialize (b : list N) : option multi :=
  if Nat.ltb (length b) 8 then None
  else
    let s := of_integer (le_val (firstn 8 b)) in
    if Nat.eqb (length b) 8 then Some (Multi s [])
    else if Nat.ltb (length b) 10 then None
    else
      let n := N.to_nat (le_val (firstn 2 (skipn 8 b))) in
      if Nat.ltb max_addln_pieces n then None
      else match read_chain n (skipn 10 b) with
           | Some l => Some (Multi s l)
           | None => None
           end.
