(** * Model of one journal descriptor.
    Source: src/lib/device/journal_vdev.cpp 72-177 and 212-680 (Descriptor), device_manager.cpp
    901-937 (ChunkPool).
    Offsets are unbounded integers.  A chunk is its id; the private data of a chunk
    ([JournalChunkPrivate]) is kept in memory and on disk with the same content, since every
    change is followed by [update_chunk_private], one atomic superblock write.
    All chunks of the device have the size [cs].  The chunk pool is an input: it hands out
    some chunk.  The seek cursor, [async_append], metrics and logging are not modelled.
    [None] is a failed release assert or the use of a null chunk. *)
From Coq Require Import NArith ZArith List Bool.
Import ListNotations.
Local Open Scope Z_scope.

(** journal_vdev.hpp:36-42 *)
Record priv := Priv { pv_logdev : N; pv_head : bool; pv_created : N; pv_eoc : Z; pv_next : N }.
Definition priv0 : priv := Priv 0 false 0 0 0.
(** journal_vdev.cpp:50-53: content of a chunk made for, or returned to, the pool. *)
Definition priv_fresh (cs : Z) (created : N) : priv := Priv 0 false created cs 0.

(** journal_vdev.hpp:60-72.  [m_journal_chunks] is the list of ids. *)
Record jdesc := JD { j_start : Z; j_wsz : Z; j_resv : Z; j_end : Z; j_total : Z; j_chunks : list N }.

Definition privs := N -> priv.
Definition put_priv (f : privs) (w : N * priv) : privs := fun i => if N.eqb i (fst w) then snd w else f i.
Definition put_privs (f : privs) (ws : list (N * priv)) : privs := fold_left put_priv ws f.

Definition round_down (x m : Z) : Z := x / m * m.
Definition round_up (x m : Z) : Z := (x + m - 1) / m * m.

(** :531-537, [tail_offset]. *)
Definition tail (d : jdesc) : option Z :=
  let t := j_start d + j_wsz d + j_resv d in if t <=? j_end d then Some t else None.

(** :212-257, [append_chunk]; the new chunk is [nid].  Also the superblock write it makes. *)
Definition append_chunk (cs : Z) (logdev : N) (d : jdesc) (pv : privs) (nid : N) : option (jdesc * (N * priv)) :=
  match rev (j_chunks d) with
  | [] =>
    let p := pv nid in
    Some (JD (j_start d) (j_wsz d) (j_resv d) (j_end d + cs) (j_total d + cs) [nid],
          (nid, Priv logdev true (pv_created p) cs (pv_next p)))
  | last :: _ =>
    match tail (JD (j_start d) (j_wsz d) (j_resv d) (j_end d + cs) (j_total d + cs) (j_chunks d)) with
    | None => None
    | Some t =>
      let o := t mod cs in
      let p := pv last in
      if o =? 0 then
        Some (JD (j_start d) (j_wsz d) (j_resv d) (j_end d + cs) (j_total d + cs) (j_chunks d ++ [nid]),
              (last, Priv (pv_logdev p) (pv_head p) (pv_created p) (pv_eoc p) nid))
      else
        Some (JD (j_start d) (j_wsz d + (cs - o)) (j_resv d) (j_end d + cs) (j_total d + cs) (j_chunks d ++ [nid]),
              (last, Priv (pv_logdev p) (pv_head p) (pv_created p) o nid))
    end
  end.

(** :259-302, [alloc_next_append_blk]. *)
Definition alloc (cs : Z) (logdev : N) (d : jdesc) (pv : privs) (sz : Z) (nid : N) : option (jdesc * list (N * priv) * Z) :=
  if cs <=? sz then None
  else match tail d with
  | None => None
  | Some t =>
    let finish d1 ws t1 :=
      if t1 <? j_start d1 then None
      else Some (JD (j_start d1) (j_wsz d1) (j_resv d1 + sz) (j_end d1) (j_total d1) (j_chunks d1), ws, t1) in
    if j_end d <=? t + sz then
      match append_chunk cs logdev d pv nid with
      | None => None
      | Some (d1, w) =>
        match tail d1 with
        | None => None
        | Some t1 => if j_end d1 <=? t1 + sz then None else finish d1 [w] t1
        end
      end
    else finish d [] t
  end.

(** :714-732, [offset_to_chunk]: chunk, index and offset; [None] is the null chunk.  The
    subtraction is unsigned, so an offset below the first chunk is never found. *)
Fixpoint find_chunk (cs : Z) (l : list N) (index : nat) (o : Z) : option (N * nat * Z) :=
  match l with
  | [] => None
  | c :: r => if cs <=? o then find_chunk cs r (S index) (o - cs) else Some (c, index, o)
  end.
Definition offset_to_chunk (cs : Z) (d : jdesc) (x : Z) : option (N * nat * Z) :=
  let o := x - round_down (j_start d) cs in
  if o <? 0 then None else find_chunk cs (j_chunks d) 0 o.

(** :312-325 and 352-400, the pwrite family: where the bytes go. *)
Definition pwrite (cs : Z) (d : jdesc) (len x : Z) : option (jdesc * (N * Z)) :=
  if j_resv d <? len then None
  else match offset_to_chunk cs d x with
  | None => None
  | Some (c, _, o) =>
    if cs - o <? len then None
    else Some (JD (j_start d) (j_wsz d + len) (j_resv d - len) (j_end d) (j_total d) (j_chunks d), (c, o))
  end.

(** :447-459, [sync_pread]: chunk, offset and number of bytes read. *)
Definition pread (cs : Z) (d : jdesc) (size x : Z) : option (N * Z * Z) :=
  match offset_to_chunk cs d x with
  | None => None
  | Some (c, _, o) => Some (c, o, if cs - o <? size then cs - o else size)
  end.

(** :513-529, [update_data_start_offset]. *)
Definition update_data_start_offset (cs : Z) (d : jdesc) (x : Z) : option jdesc :=
  match j_chunks d with
  | [] => Some (JD (round_up x cs) (j_wsz d) (j_resv d) (round_up x cs) (j_total d) [])
  | _ =>
    let e := round_down x cs + Z.of_nat (length (j_chunks d)) * cs in
    if e - round_down x cs =? j_total d then Some (JD x (j_wsz d) (j_resv d) e (j_total d) (j_chunks d)) else None
  end.

(** :539-551, [update_tail_offset]. *)
Definition update_tail_offset (d : jdesc) (t : Z) : option jdesc :=
  if j_start d <=? t then Some (JD (j_start d) (t - j_start d) (j_resv d) (j_end d) (j_total d) (j_chunks d))
  else if t =? 0 then Some d else None.

(** :612-644, the loop of [truncate]: the chunks kept and those released. *)
Fixpoint release_loop (cs : Z) (pv : privs) (total : nat) (index : nat) (l : list N) (cover tail_off t : Z) : list N * list N :=
  match l with
  | [] => ([], [])
  | c :: r =>
    let lastc := Nat.eqb index (total - 1) in
    let cover' := if lastc then cover + tail_off mod cs else cover + cs in
    let hole := if lastc then 0 else cs - pv_eoc (pv c) in
    let (kept, gone) := release_loop cs pv total (S index) r cover' tail_off t in
    if (cover' <=? t) || (cover' - hole <=? t) then (kept, c :: gone) else (c :: kept, gone)
  end.

(** :155-167 and device_manager.cpp:916-937: the writes of [release_chunk_to_pool]; a pool
    that is full removes the chunk instead. *)
Definition release_writes (cs : Z) (created : N) (c : N) : list (N * priv) := [(c, priv0); (c, priv_fresh cs created)].

(** :553-670, [truncate]; the answer is the new start offset. *)
Definition truncate (cs : Z) (logdev : N) (d : jdesc) (pv : privs) (t : Z) (now : N) : option (jdesc * list (N * priv) * list N) :=
  if t <? j_start d then None
  else match offset_to_chunk cs d t with
  | None => None
  | Some (c, index, o) =>
    let e := pv_eoc (pv c) in
    let next := if e <=? o then nth_error (j_chunks d) (S index) else None in
    let head := match next with Some c' => c' | None => c end in
    let size := match next with Some _ => t - j_start d + (cs - e) | None => t - j_start d end in
    let ph := pv head in
    let w := (head, Priv logdev true (pv_created ph) (pv_eoc ph) (pv_next ph)) in
    let (kept, gone) := release_loop cs (put_priv pv w) (length (j_chunks d)) 0 (j_chunks d) (round_down (j_start d) cs)
                          (j_start d + j_wsz d + j_resv d) t in
    let total := j_total d - cs * Z.of_nat (length gone) in
    let t' := match next with Some _ => round_up t cs | None => t end in
    if j_end d <? t' then None
    else match update_data_start_offset cs (JD (j_start d) (j_wsz d) (j_resv d) (j_end d) total kept) t' with
         | None => None
         | Some d' => Some (JD (j_start d') (j_wsz d' - size) (j_resv d') (j_end d') (j_total d') (j_chunks d'),
                            w :: flat_map (release_writes cs now) gone, gone)
         end
  end.

(** :82-93, choice of the head of a log device among the chunks that exist ([all]). *)
Definition pick_head (logdev : N) (pv : privs) (all : list N) : N * N :=
  fold_left (fun best c =>
    if pv_head (pv c) && N.eqb (pv_logdev (pv c)) logdev && N.ltb (snd best) (pv_created (pv c))
    then (c, pv_created (pv c)) else best) all (0%N, 0%N).

(** :105-121, following [next_chunk]; [fuel] is the number of chunks that exist; running
    out of it (a cycle) is [None] too. *)
Fixpoint follow (fuel : nat) (pv : privs) (all : list N) (c : N) : option (list N) :=
  if N.eqb c 0 then Some []
  else match fuel with
  | O => None
  | S f => if existsb (N.eqb c) all
           then match follow f pv all (pv_next (pv c)) with Some l => Some (c :: l) | None => None end
           else None
  end.

(** Restart: :72-121 for one log device, then log_dev.cpp:85 and :269 with the start offset
    the log device has stored and the tail it finds. *)
Definition restart (cs : Z) (logdev : N) (pv : privs) (all : list N) (start t : Z) : option jdesc :=
  match follow (length all) pv all (fst (pick_head logdev pv all)) with
  | None => None
  | Some l =>
    match update_data_start_offset cs (JD 0 0 0 0 (cs * Z.of_nat (length l)) l) start with
    | None => None
    | Some d => update_tail_offset d t
    end
  end.

(** log_dev.cpp:71, a descriptor made for a new log device. *)
Definition fresh : jdesc := JD 0 0 0 0 0 [].

(** ** Chunk contents *)
Definition media := N -> Z -> N.
Fixpoint put_bytes (f : Z -> N) (o : Z) (l : list N) : Z -> N :=
  match l with
  | [] => f
  | b :: r => put_bytes (fun x => if x =? o then b else f x) (o + 1) r
  end.
Definition write_media (m : media) (c : N) (o : Z) (l : list N) : media :=
  fun i => if N.eqb i c then put_bytes (m c) o l else m i.
Fixpoint get_bytes (f : Z -> N) (o : Z) (n : nat) : list N :=
  match n with O => [] | S k => f o :: get_bytes f (o + 1) k end.
