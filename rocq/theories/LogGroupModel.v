(** * Model of log groups: building one and reading one.
    Source: src/lib/logstore/log_group.cpp, log_dev.hpp 43-190 (formats), log_stream.cpp,
    log_dev.cpp 210-271 (do_load), 303-371 (read) and 406-428 (prepare_flush).
    Bytes are [N]; buffer positions are unbounded (the code uses [uint32_t]).
    The CRC is a parameter: any function that consumes one byte at a time, as [crc32_ieee]
    does.  Buffers come from [aligned_unique_ptr::make_sized] and are not cleared, so their
    initial content is a parameter. *)
From Coq Require Import NArith ZArith List Bool Arith.
From Verif Require Import Base ByteBase.
Import ListNotations.

(** log_dev.hpp:45-48 *)
Definition hdr_magic : N := 15731998.    (* 0xF00D1E *)
Definition ftr_magic : N := 11537694.    (* 0xB00D1E *)
Definition initial_read_size : nat := 8 * 512.
(** packed sizes, log_dev.hpp:70-96 and 125-189 *)
Definition hdr_size : nat := 48.
Definition rec_size : nat := 20.
Definition ftr_size : nat := 24.
(** log_dev.hpp:238-240 *)
Definition inline_log_buf_size : nat := 16 * 512.
Definition max_records_in_a_batch : nat := (initial_read_size - hdr_size) / rec_size.

(** [c_mult]: flush size multiple; [c_opt]: optimal_inline_data_size; [c_crc]: one step of
    the CRC; [c_init]: init_crc32. *)
Record config := Config { c_mult : nat; c_opt : nat; c_crc : N -> N -> N; c_init : N }.

Definition crc_of (cf : config) (c : N) (bs : list N) : N := fold_left (c_crc cf) bs c.

(** log_dev.hpp:99-122, [log_record]; [r_dma]: the buffer is aligned to the multiple. *)
Record record := Rec { r_store : N; r_seq : Z; r_data : list N; r_dma : bool }.
Definition is_inlineable (cf : config) (r : record) : bool :=
  (length (r_data r) <? c_opt cf) || negb (length (r_data r) mod c_mult cf =? 0) || negb (r_dma r).

(** log_dev.hpp:272-294.  [g_buf] is the whole of the current buffer (its length is
    [m_cur_buf_len]), [g_oob] the data of the iovecs after the first. *)
Record group := Group { g_buf : list N; g_inl : nat; g_oobp : nat; g_n : nat; g_max : nat; g_oob : list (list N) }.

(** log_group.cpp:45-59, [reset]; [buf0]: the log buffer as the last group left it. *)
Definition reset (cf : config) (buf0 : list N) (max_records : nat) : group :=
  Group buf0 (hdr_size + rec_size * max_records) 0 0 (Nat.min max_records max_records_in_a_batch) [].
(** log_group.cpp:46, length of the log buffer. *)
Definition buf_len (cf : config) : nat := round_up inline_log_buf_size (c_mult cf).

(** log_group.cpp:61-73, [create_overflow_buf]; [junk]: content of new memory. *)
Definition create_overflow (cf : config) (junk : nat -> N) (buf : list N) (needed : nat) : list N :=
  let new_len := round_up (Nat.max needed (length buf * 2)) (c_mult cf) in
  buf ++ map junk (seq 0 (new_len - length buf)).

(** log_dev.hpp:70-76: size, offset and inline bit, sequence number, store. *)
Definition enc_rec (size offset : nat) (inlined : bool) (seq : Z) (store : N) : list N :=
  le 4 (N.of_nat size) ++ le 4 (N.of_nat offset mod 2 ^ 31 + (if inlined then 2 ^ 31 else 0)) ++ le 8 (z64 seq) ++ le 4 store.

(** Writing at [pos] of a buffer; [None]: past its end. *)
Definition write (pos : nat) (bs buf : list N) : option (list N) :=
  if length buf <? pos + length bs then None else Some (put pos bs buf).
Notation "'do' x <- e ; k" := (match e with Some x => k | None => None end) (at level 60, x name, e at next level, right associativity).

(** log_group.cpp:75-114, [add_record]; [None]: a write outside the buffer, [Some None]: the
    group is full. *)
Definition add_record (cf : config) (junk : nat -> N) (g : group) (r : record) (idx : Z) : option (option group) :=
  if g_max g <=? g_n g then Some None
  else
    let size := length (r_data r) in
    let buf := if length (g_buf g) <=? g_inl g + size then create_overflow cf junk (g_buf g) (g_inl g + size) else g_buf g in
    do buf <- (if g_n g =? 0 then write 12 (le 8 (z64 idx)) buf else Some buf);
    let slot := hdr_size + rec_size * g_n g in
    if is_inlineable cf r then
      do buf <- write slot (enc_rec size (g_inl g) true (r_seq r) (r_store r)) buf;
      do buf <- write (g_inl g) (r_data r) buf;
      Some (Some (Group buf (g_inl g + size) (g_oobp g) (S (g_n g)) (g_max g) (g_oob g)))
    else
      do buf <- write slot (enc_rec size (g_oobp g) false (r_seq r) (r_store r)) buf;
      Some (Some (Group buf (g_inl g) (g_oobp g + size) (S (g_n g)) (g_max g) (g_oob g ++ [r_data r]))).

(** log_group.cpp:116-118 *)
Definition new_iovec_for_footer (g : group) : bool :=
  (length (g_buf g) <=? g_inl g + ftr_size) || negb (g_oobp g =? 0).

(** log_dev.hpp:180-188: 24-bit magic and version, index; 12 bytes of padding are left as
    they were. *)
Definition enc_footer (start : N) : list N := le 4 ftr_magic ++ le 8 start.

(** log_dev.hpp:126-139 without the CRC of the group, then with it; [start] is the field
    [start_log_idx], which the constructor called by [finish] does not touch. *)
Definition enc_header (n : nat) (start : N) (size inline_off oob_off ftr_off : nat) (prev_crc crc logdev : N) : list N :=
  le 4 hdr_magic ++ le 4 0 ++ le 4 (N.of_nat n) ++ le 8 start ++ le 4 (N.of_nat size) ++ le 4 (N.of_nat inline_off) ++
  le 4 (N.of_nat oob_off) ++ le 4 (N.of_nat ftr_off) ++ le 4 prev_crc ++ le 4 crc ++ le 4 logdev.

(** log_group.cpp:120-177, [finish], [add_and_get_footer], [compute_crc]: the bytes of all
    iovecs in order.  [fbuf] is the footer buffer as the last group left it.  [None]: the
    first iovec is longer than the buffer it points to, or a write is outside it. *)
Definition finish (cf : config) (fbuf : list N) (g : group) (logdev prev_crc : N) : option (list N) :=
  let own := new_iovec_for_footer g in
  let start := get 12 8 (g_buf g) in
  do buf1 <- (if own then Some (g_buf g) else write (g_inl g) (enc_footer start) (g_buf g));
  do fb <- (if own then write 0 (enc_footer start) fbuf else Some []);
  let iov0 := round_up (if own then g_inl g else g_inl g + ftr_size) (c_mult cf) in
  if length buf1 <? iov0 then None
  else
    let ftr_off := if own then iov0 + g_oobp g else g_inl g in
    let size := if own then ftr_off + length fbuf else iov0 in
    let body := skipn hdr_size (firstn iov0 buf1) ++ concat (g_oob g) ++ fb in
    Some (enc_header (g_n g) start size (hdr_size + g_max g * rec_size) iov0 ftr_off prev_crc
                     (crc_of cf (c_init cf) body) logdev ++ body).

(** log_dev.cpp:406-425, [prepare_flush]: the records appended so far, in order, until one is
    refused.  Result: the group and how many were taken. *)
Fixpoint add_all (cf : config) (junk : nat -> N) (g : group) (rs : list record) (idx : Z) : option (group * nat) :=
  match rs with
  | [] => Some (g, 0)
  | r :: rest => match add_record cf junk g r idx with
                 | None => None
                 | Some None => Some (g, 0)
                 | Some (Some g') => match add_all cf junk g' rest (idx + 1) with
                                     | None => None
                                     | Some (g'', n) => Some (g'', S n)
                                     end
                 end
  end.
(** Bytes written and number of records taken. *)
Definition make_group (cf : config) (junk : nat -> N) (buf0 fbuf : list N) (max_records : nat) (rs : list record) (idx : Z)
    (logdev prev_crc : N) : option (list N * nat) :=
  match add_all cf junk (reset cf buf0 max_records) rs idx with
  | None => None
  | Some (g, n) => match finish cf fbuf g logdev prev_crc with None => None | Some b => Some (b, n) end
  end.

(** ** Reading *)
(** Header fields. *)
Definition h_magic (b : list N) : N := get 0 4 b.
Definition h_version (b : list N) : N := get 4 4 b mod 256.
Definition h_nrec (b : list N) : nat := N.to_nat (get 8 4 b).
Definition h_start (b : list N) : Z := unz64 (get 12 8 b).
Definition h_size (b : list N) : nat := N.to_nat (get 20 4 b).
Definition h_oob (b : list N) : nat := N.to_nat (get 28 4 b).
Definition h_footer (b : list N) : nat := N.to_nat (get 32 4 b).
Definition h_prev_crc (b : list N) : N := get 36 4 b.
Definition h_crc (b : list N) : N := get 40 4 b.
Definition h_logdev (b : list N) : N := get 44 4 b.

(** log_dev.hpp:156-158, [nth_record], and log_dev.cpp:243 / :317: where its data is. *)
Definition rec_at (b : list N) (i : nat) : nat * nat * Z * N :=
  let s := sub (hdr_size + rec_size * i) rec_size b in
  let w := get 4 4 s in
  let offset := N.to_nat (w mod 2 ^ 31) + (if (w / 2 ^ 31 =? 1)%N then 0 else h_oob b) in
  (N.to_nat (get 0 4 s), offset, unz64 (get 8 8 s), get 16 4 s).

(** log_dev.cpp:241-261: the records handed to [on_logfound]: store, sequence number, data. *)
Definition deliver (b : list N) : list (N * Z * list N) :=
  map (fun i => let '(size, off, sq, store) := rec_at b i in (store, sq, sub off size b)) (seq 0 (h_nrec b)).

(** log_stream.cpp:37-159, [next_group] at a position of the stream.  [rest] are the bytes
    from there to the end of the last chunk, unused ends of chunks left out (what
    [read_next_bytes] returns); [last] is [is_offset_at_last_chunk].
    Bulk reading is not modelled: the code reads on until the buffer holds what it needs or
    the stream ends.  [NUb] is a read outside the buffer. *)
Inductive next := NEnd | NAssert | NUb | NGroup (b : list N).
Definition next_group (cf : config) (logdev : N) (prev_crc : N) (last : bool) (rest : list N) : next :=
  if length rest <? c_mult cf then NEnd
  else if negb (h_magic rest =? hdr_magic)%N then NEnd
  else if negb (h_logdev rest =? logdev)%N then NEnd
  else if negb (prev_crc =? 0)%N && negb (prev_crc =? h_prev_crc rest)%N then (if last then NEnd else NAssert)
  else if length rest <? h_size rest then NEnd
  else if length rest <? h_footer rest + 12 then NUb
  else if negb (get (h_footer rest) 3 rest =? ftr_magic)%N || negb (unz64 (get (h_footer rest + 4) 8 rest) =? h_start rest)%Z
       then (if last then NEnd else NAssert)
  else if h_size rest <? hdr_size then NUb
  else if negb (crc_of cf (c_init cf) (sub hdr_size (h_size rest - hdr_size) rest) =? h_crc rest)%N then NAssert
  else NGroup (firstn (h_size rest) rest).

(** log_dev.cpp:210-271, [do_load]: groups are taken until one is refused.  The result is
    what was delivered (index, store, sequence number, data), the next log index, the
    position reached, the CRC kept, and how it ended.  [lastp]: is a stream position in the
    last chunk.  Rolled back records are dealt with elsewhere (LogDevModel). *)
Inductive ended := Loaded | Died.
Definition number (start : Z) (l : list (N * Z * list N)) : list (Z * (N * Z * list N)) :=
  combine (map (fun i => (start + Z.of_nat i)%Z) (seq 0 (length l))) l.
Fixpoint do_load (cf : config) (logdev : N) (lastp : nat -> bool) (fuel : nat) (prev_crc : N) (pos : nat) (first : bool)
    (idx : Z) (last_crc : N) (stream : list N) : list (Z * (N * Z * list N)) * Z * nat * N * ended :=
  match fuel with
  | O => ([], idx, pos, last_crc, Died)
  | S fuel' =>
    match next_group cf logdev prev_crc (lastp pos) stream with
    | NEnd => ([], idx, pos, last_crc, Loaded)
    | NAssert | NUb => ([], idx, pos, last_crc, Died)
    | NGroup b =>
      if first && (h_start b <? idx)%Z then ([], idx, pos, last_crc, Loaded)
      else if negb (h_start b =? idx)%Z || (h_nrec b =? 0) then ([], idx, pos, last_crc, Died)
      else
        let '(l, idx', pos', c', e) :=
          do_load cf logdev lastp fuel' (h_crc b) (pos + h_size b) false (idx + Z.of_nat (h_nrec b)) (h_crc b)
                  (skipn (h_size b) stream) in
        (number (h_start b) (deliver b) ++ l, idx', pos', c', e)
    end
  end.

(** log_dev.cpp:303-332 and 352-371, [read] of one record; [chunk] are the bytes from the
    device offset of the group to the end of its chunk, [align] the alignment of the device.
    [None]: a failed assertion. *)
Definition read (cf : config) (align : nat) (chunk : list N) (idx : Z) : option (list N) :=
  let buf := firstn initial_read_size chunk in
  if negb (h_magic buf =? hdr_magic)%N || negb (h_version buf =? 0)%N || (idx <? h_start buf)%Z ||
     (h_start buf + Z.of_nat (h_nrec buf) <=? idx)%Z ||
     ((h_size buf <=? initial_read_size) &&
      negb (h_crc buf =? crc_of cf (c_init cf) (sub hdr_size (h_size buf - hdr_size) buf))%N)
  then None
  else
    let '(size, off, _, _) := rec_at buf (Z.to_nat (idx - h_start buf)) in
    if off + size <? initial_read_size then Some (sub off size buf)
    else
      let ro := round_down off align in
      let rs := round_up (size + off - ro) align in
      Some (sub (off - ro) size (sub ro rs chunk)).
