(** * Model of the chunk area of a physical device.
    Source: src/lib/device/physical_dev.cpp 251-485 and device_manager.cpp 573-660.
    A call holds [m_chunk_op_mtx], so it is one step for other callers; a crash may fall
    between any two of its superblock writes.  One superblock write is atomic (a torn
    bitmap is not modelled).  The checksum of a slot is modelled as "this slot was written
    by populate_chunk_info or free_chunk_info"; any other content fails it.  Streams, the
    footer mirror, private data and logging are not modelled.
    boost::icl::split_interval_set is a list of disjoint intervals sorted by start.
    [None] is a failed release assert. *)
From Coq Require Import NArith List Lia Bool.
From Verif Require Import Base ExtSpec BitmapModel VarsizeModel.
Import ListNotations.
Local Open Scope N_scope.

(** physical_dev.hpp:226-230 and physical_dev.cpp:252: bounds of the data area, number of
    chunk info slots. *)
Record pcfg := PCfg { p_start : N; p_end : N; p_nslots : N }.

(** physical_dev.hpp:77-91, [chunk_info]: start offset and size, vdev, id, ordinal,
    [chunk_allocated]. *)
Record cinfo := CInfo { ci_ext : ext; ci_vdev : N; ci_id : N; ci_ord : N; ci_alloc : bool }.

(** A chunk object: slot number and info. *)
Notation chunk := (N * cinfo)%type.

(** The chunk superblock: slot bitmap and slots. *)
Record pdisk := PDisk { d_bm : bits; d_slot : N -> option cinfo }.

(** physical_dev.hpp:136-140: [m_chunk_info_slots], [m_chunk_data_area], [m_chunk_start],
    the chunk objects. *)
Record pmem := PMem { m_bm : bits; m_area : list ext; m_starts : list N; m_chunks : list chunk }.

(** The two kinds of superblock writes: consecutive slots, the bitmap. *)
Inductive wr := WInfos (slot : N) (l : list cinfo) | WBitmap (bm : bits).

Definition put_slots (f : N -> option cinfo) (slot : N) (l : list cinfo) : N -> option cinfo :=
  fun s => if (slot <=? s) && (s <? slot + N.of_nat (length l)) then nth_error l (N.to_nat (s - slot)) else f s.

Definition wr_disk (d : pdisk) (w : wr) : pdisk :=
  match w with
  | WInfos slot l => PDisk (d_bm d) (put_slots (d_slot d) slot l)
  | WBitmap bm => PDisk bm (d_slot d)
  end.
Definition wr_all (d : pdisk) (ws : list wr) : pdisk := fold_left wr_disk ws d.

(** physical_dev.cpp:474-485, [find_next_chunk_area]; [None] is the exception. *)
Fixpoint first_gap (cur size : N) (area : list ext) : N :=
  match area with
  | [] => cur
  | x :: r => if cur + size <=? fst x then cur else first_gap (fst x + snd x) size r
  end.
Definition find_next_chunk_area (cf : pcfg) (area : list ext) (size : N) : option N :=
  let s := first_gap (p_start cf) size area in
  if p_end cf <? s + size then None else Some s.

(** Interval set insertion and removal. *)
Fixpoint area_insert (x : ext) (l : list ext) : list ext :=
  match l with
  | [] => [x]
  | y :: r => if fst x <? fst y then x :: l else y :: area_insert x r
  end.
Definition ext_eqb (x y : ext) : bool := (fst x =? fst y) && (snd x =? snd y).
Definition area_erase (x : ext) (l : list ext) : list ext := filter (fun y => negb (ext_eqb y x)) l.

(** :446-462, [populate_chunk_info].  Outer [None] is the release assert, inner [None]
    the exception. *)
Definition populate (cf : pcfg) (m : pmem) (vdev size id ord : N) : option (option (pmem * cinfo)) :=
  match find_next_chunk_area cf (m_area m) size with
  | None => Some None
  | Some s =>
    if existsb (N.eqb s) (m_starts m) then None
    else Some (Some (PMem (m_bm m) (area_insert (s, size) (m_area m)) (s :: m_starts m) (m_chunks m),
                     CInfo (s, size) vdev id ord true))
  end.

Definition bit_on (bm : bits) (b : N) : bits := set_bits bm (b, 1).
Definition bit_off (bm : bits) (b : N) : bits := reset_bits bm (b, 1).

(** :423-441 and 464-472, [do_remove_chunk] and [free_chunk_info]: new memory and the
    two writes. *)
Definition freed (i : cinfo) : cinfo := CInfo (ci_ext i) (ci_vdev i) (ci_id i) (ci_ord i) false.
Definition do_remove (m : pmem) (c : chunk) : pmem * list wr :=
  let m' := PMem (bit_off (m_bm m) (fst c)) (area_erase (ci_ext (snd c)) (m_area m))
                 (filter (fun s => negb (s =? fst (ci_ext (snd c)))) (m_starts m))
                 (filter (fun y => negb (fst y =? fst c)) (m_chunks m)) in
  (m', [WInfos (fst c) [freed (snd c)]; WBitmap (m_bm m')]).

Fixpoint do_removes (m : pmem) (l : list chunk) : pmem * list wr :=
  match l with
  | [] => (m, [])
  | c :: r => let (m1, w1) := do_remove m c in let (m2, w2) := do_removes m1 r in (m2, w1 ++ w2)
  end.

(** :273-290, one batch of [create_chunks]: populate the slots [slot, slot+length ids).
    The flag is false when the exception stopped it. *)
Fixpoint batch (cf : pcfg) (m : pmem) (vdev size slot ord : N) (ids : list N) : option (pmem * list chunk * bool) :=
  match ids with
  | [] => Some (m, [], true)
  | id :: r =>
    match populate cf m vdev size id ord with
    | None => None
    | Some None => Some (m, [], false)
    | Some (Some (m1, i)) =>
      match batch cf (PMem (m_bm m1) (m_area m1) (m_starts m1) ((slot, i) :: m_chunks m1)) vdev size (slot + 1) (ord + 1) r with
      | None => None
      | Some (m2, cs, ok) => Some (m2, (slot, i) :: cs, ok)
      end
    end
  end.

(** :266-299, the loop.  [made] are the chunks made so far, [ws] the writes so far. *)
Fixpoint create_loop (cf : pcfg) (fuel : nat) (m : pmem) (vdev size ord : N) (ids : list N) (made : list chunk) (ws : list wr)
  : option (pmem * list chunk * list wr * bool) :=
  match ids with
  | [] => Some (m, made, ws ++ [WBitmap (m_bm m)], true)
  | _ :: _ =>
    match fuel with
    | O => None
    | S fuel' =>
      let (b, n) := first_fit (p_nslots cf) (m_bm m) 0 (p_nslots cf) 1 (N.of_nat (length ids)) in
      if n =? 0 then Some (m, made, ws, false)
      else match batch cf m vdev size b ord (firstn (N.to_nat n) ids) with
           | None => None
           | Some (m1, cs, false) => Some (m1, made ++ cs, ws, false)
           | Some (m1, cs, true) =>
             create_loop cf fuel' (PMem (set_bits (m_bm m1) (b, n)) (m_area m1) (m_starts m1) (m_chunks m1))
                         vdev size (ord + n) (skipn (N.to_nat n) ids) (made ++ cs) (ws ++ [WInfos b (map snd cs)])
           end
    end
  end.

(** :262-312, [create_chunks].  The answer is the list of chunks, or [None] for the
    exception; the chunks made by then are removed again. *)
Definition create_chunks (cf : pcfg) (m : pmem) (vdev size : N) (ids : list N)
  : option (pmem * list wr * option (list chunk)) :=
  match create_loop cf (length ids) m vdev size 0 ids [] [] with
  | None => None
  | Some (m1, made, ws, true) => Some (m1, ws, Some made)
  | Some (m1, made, ws, false) => let (m2, w2) := do_removes m1 made in Some (m2, ws ++ w2, None)
  end.

(** :314-347, [create_chunk].  When no gap is found the slot bit stays set. *)
Definition create_chunk (cf : pcfg) (m : pmem) (id vdev size ord : N) : option (pmem * list wr * option chunk) :=
  let (b, n) := first_fit (p_nslots cf) (m_bm m) 0 (p_nslots cf) 1 1 in
  if n =? 0 then Some (m, [], None)
  else
    let m0 := PMem (bit_on (m_bm m) b) (m_area m) (m_starts m) (m_chunks m) in
    match populate cf m0 vdev size id ord with
    | None => None
    | Some None => Some (m0, [], None)
    | Some (Some (m1, i)) =>
      Some (PMem (m_bm m1) (m_area m1) (m_starts m1) ((b, i) :: m_chunks m1), [WInfos b [i]; WBitmap (m_bm m1)], Some (b, i))
    end.

(** :366-409, [load_chunks]: every slot whose bit is set becomes a chunk; its interval is
    inserted; [m_chunk_start] is not filled.  [None] is the checksum assert. *)
Fixpoint load_slots (d : pdisk) (slots : list N) (m : pmem) : option pmem :=
  match slots with
  | [] => Some m
  | s :: r =>
    if d_bm d s then
      match d_slot d s with
      | None => None
      | Some i => load_slots d r (PMem (m_bm m) (area_insert (ci_ext i) (m_area m)) (m_starts m) ((s, i) :: m_chunks m))
      end
    else load_slots d r m
  end.
Definition load_chunks (cf : pcfg) (d : pdisk) : option pmem :=
  load_slots d (range 0 (N.to_nat (p_nslots cf))) (PMem (d_bm d) [] [] []).

(** :251-260, [format_chunks], on a device whose slots hold anything. *)
Definition formatted (junk : N -> option cinfo) : pmem * pdisk :=
  (PMem (fun _ => false) [] [] [], PDisk (fun _ => false) junk).

(** ** Chunk ids: device_manager.cpp:586-606 and 612-660. *)

(** [m_chunk_id_bm] after [load_vdevs]: only chunks whose vdev is known are entered. *)
Definition ids_after_load (known : N -> bool) (l : list chunk) : bits :=
  fold_right (fun c bm => if known (ci_vdev (snd c)) then bit_on bm (ci_id (snd c)) else bm) (fun _ => false) l.

(** device_manager.cpp:612-618, the id given to a new chunk. *)
Definition next_chunk_id (ids : bits) : option N :=
  let (b, n) := first_fit 65536 ids 0 65536 1 1 in if n =? 0 then None else Some b.
