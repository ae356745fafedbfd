(** * Model of the meta block service.
    Source: src/lib/meta/meta_blk_service.cpp, src/lib/meta/meta_sb.hpp.
    The meta device is a map from block numbers to blocks; a block holds a header of one of
    three kinds or a piece of data (the encoding of headers is not modelled; magic and version
    checks are "the block is of the expected kind").  A call is the list of the block writes it
    does, in order, and the state of memory after it; a crash cuts the list anywhere.  A write
    of several blocks is split into writes of single blocks, each of which is atomic.  Calls
    are serialised by m_meta_mtx.  Blocks come from an allocator that is not part of this
    model: they are arguments of the calls.  The part of the last data block behind the data
    keeps what it had; here the block is just shorter.  [None]: a release assertion fails, or a
    null pointer is used. *)
From Coq Require Import ZArith NArith List Bool Arith.
Import ListNotations.
Open Scope nat_scope.

(** [e_bs]: block size; [e_size]: blocks of the device; [e_ssb]: first_blkid of the vdev context
    (:71-77, :182-184); checksum and compression as functions of the bytes; [e_zip] is [None]
    when the data is not compressed (:671-717); [e_docrc]: the flag given at registration. *)
Record env := Env { e_bs : nat; e_size : N; e_ssb : N; e_crc : list Z -> Z; e_docrc : nat -> bool; e_zip : list Z -> option (list Z); e_unzip : list Z -> list Z }.
(** A BlkId of the data: first block and number of blocks. *)
Notation ext := (N * nat)%type.

(** meta_sb.hpp:119-142 meta_blk_hdr_s and the context data behind it; context_sz is [b_size],
    compressed is [b_zip], src_context_sz and compressed_sz belong to [e_unzip]. *)
Record mblk := Mblk { b_bid : N; b_next : option N; b_prev : N; b_ovf : option N; b_gen : nat; b_size : nat; b_crc : Z; b_zip : bool; b_type : nat; b_inline : list Z }.
(** meta_sb.hpp:175-181 meta_blk_ovf_hdr_s and the data ids behind it *)
Record ovf := Ovf { o_bid : N; o_next : option N; o_ids : list ext; o_size : nat }.
Inductive blk := BSsb (next : option N) | BMeta (m : mblk) | BOvf (o : ovf) | BData (l : list Z).
Notation disk := (N -> blk).
Notation write := (N * blk)%type.
Definition put1 (d : disk) (w : write) : disk := fun b => if N.eqb b (fst w) then snd w else d b.
Definition puts (d : disk) (ws : list write) : disk := fold_left put1 ws d.

(** :1301-1305 *)
Definition ctx_sz (e : env) : nat := e_bs e - 512.
Definition max_ids (e : env) : nat := (e_bs e - 512) / 8.

(** ** Memory
    m_ssb->next_bid, m_meta_blks, m_ovf_blk_hdrs, m_last_mblk_id, the allocated blocks of the
    vdev, and the meta_bids of all m_sub_info as pairs (type, block). *)
Record st := St { s_disk : disk; s_first : option N; s_metas : N -> option mblk; s_ovfs : N -> option ovf; s_last : option N; s_used : N -> bool; s_subs : list (nat * N) }.
Definition set {A} (k : N) (v : A) (f : N -> A) : N -> A := fun x => if N.eqb x k then v else f x.
Definition in_b (x : N) (l : list N) : bool := existsb (N.eqb x) l.
Definition blocks (x : ext) : list N := map (fun i => (fst x + N.of_nat i)%N) (seq 0 (snd x)).
Definition ofoot (o : ovf) : list N := o_bid o :: flat_map blocks (o_ids o).

(** ** Writing data *)
(** A write of the bytes [l] at block [b], split into blocks. *)
Fixpoint cut (bs : nat) (n : nat) (l : list Z) : list (list Z) :=
  match n with O => [] | S n => firstn bs l :: cut bs n (skipn bs l) end.
Definition nblocks (bs len : nat) : nat := (len + (bs - 1)) / bs.
Definition data_writes (e : env) (b : N) (l : list Z) : list write :=
  combine (map (fun i => (b + N.of_nat i)%N) (seq 0 (nblocks (e_bs e) (length l)))) (map BData (cut (e_bs e) (nblocks (e_bs e) (length l)) l)).
(** :485-520: all ids but the last get as much as they hold, the last one what is left. *)
Fixpoint ids_writes (e : env) (ids : list ext) (l : list Z) : list write :=
  match ids with
  | [] => []
  | [x] => data_writes e (fst x) l
  | x :: r => data_writes e (fst x) (firstn (snd x * e_bs e) l) ++ ids_writes e r (skipn (snd x * e_bs e) l)
  end.
(** :447-530 write_ovf_blk_to_disk: the header first, then its data. *)
Definition ovf_writes (e : env) (o : ovf) (l : list Z) : list write :=
  (o_bid o, BOvf o) :: ids_writes e (o_ids o) (firstn (o_size o) l).
Definition bytes_of (e : env) (ids : list ext) : nat := fold_right (fun x a => snd x * e_bs e + a) 0 ids.
(** :610-666 write_meta_blk_ovf: [hdrs] are the blocks for headers, [exts] the ids that are
    left (context_data_blkids from data_blkid_indx), [l] the bytes from offset_in_ctx. *)
Fixpoint plan (e : env) (hdrs : list N) (exts : list ext) (l : list Z) : option (list ovf * list write) :=
  match hdrs with
  | [] => None
  | h :: hs =>
    let mine := firstn (max_ids e) exts in
    let rest := skipn (max_ids e) exts in
    let sz := if 1 <? length rest then bytes_of e mine else length l in
    if length exts - 1 <=? max_ids e then
      let o := Ovf h None mine sz in
      if sz =? length l then Some ([o], ovf_writes e o l) else None
    else
      match hs with
      | [] => None
      | h2 :: _ => let o := Ovf h (Some h2) mine sz in
                   match plan e hs rest (skipn sz l) with
                   | Some (os, ws) => Some (o :: os, ovf_writes e o l ++ ws)
                   | None => None
                   end
      end
  end.

(** ** Reading data (:1049-1110 read_sub_sb_internal) *)
Definition dbytes (b : blk) : list Z := match b with BData l => l | _ => [] end.
Definition read_at (e : env) (d : disk) (b : N) (len : nat) : list Z :=
  firstn len (concat (map (fun i => dbytes (d (b + N.of_nat i)%N)) (seq 0 (nblocks (e_bs e) len)))).
Fixpoint read_ids (e : env) (d : disk) (ids : list ext) (sz : nat) : list Z :=
  match ids with
  | [] => []
  | [x] => read_at e d (fst x) sz
  | x :: r => read_at e d (fst x) (snd x * e_bs e) ++ read_ids e d r (sz - snd x * e_bs e)
  end.
Fixpoint read_chain (fuel : nat) (e : env) (d : disk) (ovfs : N -> option ovf) (ob : option N) (left : nat) : option (list Z) :=
  match left with
  | O => Some []
  | _ => match fuel, ob with
         | S f, Some b =>
           match ovfs b with
           | Some o => if N.eqb (o_bid o) b then
                         match read_chain f e d ovfs (o_next o) (left - o_size o) with
                         | Some l => if o_size o <=? left then Some (read_ids e d (o_ids o) (o_size o) ++ l) else None
                         | None => None
                         end
                       else None
           | None => None
           end
         | _, _ => None
         end
  end.
Definition fuel (e : env) : nat := S (N.to_nat (e_size e)).
Definition read_raw (e : env) (s : st) (m : mblk) : option (list Z) :=
  if b_size m <=? ctx_sz e then Some (firstn (b_size m) (b_inline m))
  else read_chain (fuel e) e (s_disk s) (s_ovfs s) (b_ovf m) (b_size m).

(** ** The calls: writes and memory afterwards *)
(** :668-752 write_meta_blk_internal up to the write of the block itself: the block, the
    headers, and the writes before it. *)
Definition fill (e : env) (m : mblk) (data : list Z) (hdrs : list N) (exts : list ext) : option (mblk * list ovf * list write) :=
  let (z, l) := match e_zip e data with Some l => (true, l) | None => (false, data) end in
  let crc := if e_docrc e (b_type m) then e_crc e l else b_crc m in
  if length l <=? ctx_sz e then
    Some (Mblk (b_bid m) (b_next m) (b_prev m) None (b_gen m) (length l) crc z (b_type m) l, [], [])
  else
    match plan e hdrs exts l with
    | Some (os, ws) => Some (Mblk (b_bid m) (b_next m) (b_prev m) (option_map o_bid (hd_error os)) (b_gen m) (length l) crc z (b_type m) (b_inline m), os, ws)
    | None => None
    end.
Definition use (l : list N) (u : N -> bool) : N -> bool := fun b => in_b b l || u b.
Definition unuse (l : list N) (u : N -> bool) : N -> bool := fun b => negb (in_b b l) && u b.
Definition add_ovfs (os : list ovf) (f : N -> option ovf) : N -> option ovf := fold_left (fun f o => set (o_bid o) (Some o) f) os f.
Definition with_next (m : mblk) (n : option N) := Mblk (b_bid m) n (b_prev m) (b_ovf m) (b_gen m) (b_size m) (b_crc m) (b_zip m) (b_type m) (b_inline m).
Definition with_prev (m : mblk) (p : N) := Mblk (b_bid m) (b_next m) p (b_ovf m) (b_gen m) (b_size m) (b_crc m) (b_zip m) (b_type m) (b_inline m).

(** :400-441 add_sub_sb, :551-600 init_meta_blk *)
Definition add (e : env) (t : nat) (data : list Z) (bid : N) (hdrs : list N) (exts : list ext) (s : st) : option (list write * st) :=
  let prev := match s_last s with Some l => l | None => e_ssb e end in
  match fill e (Mblk bid None prev None 0 0 0 false t []) data hdrs exts with
  | None => None
  | Some (m, os, ws) =>
    let used := use (bid :: flat_map ofoot os) (s_used s) in
    let subs := s_subs s ++ [(t, bid)] in
    match s_last s with
    | Some l =>
      match s_metas s l with
      | None => None                                     (* m_meta_blks[...] makes a null pointer *)
      | Some lm => let lm' := with_next lm (Some bid) in
                   let w := ws ++ [(bid, BMeta m); (l, BMeta lm')] in
                   Some (w, St (puts (s_disk s) w) (s_first s) (set bid (Some m) (set l (Some lm') (s_metas s))) (add_ovfs os (s_ovfs s)) (Some bid) used subs)
      end
    | None => let w := ws ++ [(bid, BMeta m); (e_ssb e, BSsb (Some bid))] in
              Some (w, St (puts (s_disk s) w) (Some bid) (set bid (Some m) (s_metas s)) (add_ovfs os (s_ovfs s)) (Some bid) used subs)
    end
  end.

(** :955-1002 free_ovf_blk_chain: what is freed and what leaves the cache. *)
Fixpoint free_chain (fuel : nat) (ovfs : N -> option ovf) (ob : option N) : option (list ovf) :=
  match ob with
  | None => Some []
  | Some b => match fuel with
              | O => None
              | S f => match ovfs b with
                       | None => None
                       | Some o => option_map (cons o) (free_chain f ovfs (o_next o))
                       end
              end
  end.
Definition del_ovfs (os : list ovf) (f : N -> option ovf) : N -> option ovf := fold_left (fun f o => set (o_bid o) None f) os f.

(** :805-870 update_sub_sb *)
Definition update (e : env) (bid : N) (data : list Z) (hdrs : list N) (exts : list ext) (s : st) : option (list write * st) :=
  match s_metas s bid with
  | None => None
  | Some m0 =>
    let m1 := Mblk (b_bid m0) (b_next m0) (b_prev m0) None (S (b_gen m0)) (b_size m0) (b_crc m0) false (b_type m0) (b_inline m0) in
    match fill e m1 data hdrs exts, free_chain (fuel e) (s_ovfs s) (b_ovf m0) with
    | Some (m, os, ws), Some old =>
      let w := ws ++ [(bid, BMeta m)] in
      Some (w, St (puts (s_disk s) w) (s_first s) (set bid (Some m) (s_metas s)) (del_ovfs old (add_ovfs os (s_ovfs s))) (s_last s)
                  (unuse (flat_map ofoot old) (use (flat_map ofoot os) (s_used s))) (s_subs s))
    | _, _ => None
    end
  end.

(** :872-950 remove_sub_sb, :1004-1018 free_meta_blk *)
Definition remove (e : env) (bid : N) (s : st) : option (list write * st) :=
  match s_metas s bid with
  | None => None
  | Some m =>
    match free_chain (fuel e) (s_ovfs s) (b_ovf m) with
    | None => None
    | Some old =>
      (* the previous block, or the super block *)
      match (if N.eqb (b_prev m) (e_ssb e) then Some ([(e_ssb e, BSsb (b_next m))], b_next m, s_metas s, (if match s_last s with Some l => N.eqb l bid | None => false end then None else s_last s))
             else match s_metas s (b_prev m) with
                  | None => None
                  | Some p => let p' := with_next p (b_next m) in Some ([(b_prev m, BMeta p')], s_first s, set (b_prev m) (Some p') (s_metas s), s_last s)
                  end) with
      | None => None
      | Some (w1, first, metas, last) =>
        (* the next block *)
        match (match b_next m with
               | None => Some ([], metas, Some (b_prev m))
               | Some nb => match metas nb with
                            | None => None
                            | Some n => let n' := with_prev n (b_prev m) in Some ([(nb, BMeta n')], set nb (Some n') metas, last)
                            end
               end) with
        | None => None
        | Some (w2, metas, last) =>
          Some (w1 ++ w2, St (puts (s_disk s) (w1 ++ w2)) first (set bid None metas) (del_ovfs old (s_ovfs s)) last
                             (unuse (bid :: flat_map ofoot old) (s_used s)) (filter (fun x => negb (N.eqb (snd x) bid)) (s_subs s)))
        end
      end
    end
  end.

(** ** Restart (:144-163 load_ssb, :225-355 scan_and_load_meta_blks) *)
Fixpoint load_ovfs (fuel : nat) (d : disk) (ob : option N) : option (list ovf) :=
  match ob with
  | None => Some []
  | Some b => match fuel with
              | O => None
              | S f => match d b with
                       | BOvf o => if N.eqb (o_bid o) b then option_map (cons o) (load_ovfs f d (o_next o)) else None
                       | _ => None
                       end
              end
  end.
Definition sum_sizes (os : list ovf) : nat := fold_right (fun o a => o_size o + a) 0 os.
(** The blocks in the order of the chain with their headers, and the writes that mend prev_bid.
    (A block is mended after it was read, and not read again.) *)
Fixpoint scan (n : nat) (e : env) (d : disk) (prev : N) (bid : option N) : option (list (mblk * list ovf) * list write) :=
  match bid with
  | None => Some ([], [])
  | Some b =>
    match n with
    | O => None
    | S n =>
      match d b with
      | BMeta m =>
        if N.eqb (b_bid m) b then
          match load_ovfs (fuel e) d (b_ovf m) with
          | Some os =>
            if (if ctx_sz e <? b_size m then 0 else b_size m) + sum_sizes os =? b_size m then
              match scan n e d b (b_next m) with
              | Some (l, ws) => Some ((with_prev m prev, os) :: l, (if N.eqb (b_prev m) prev then [] else [(b, BMeta (with_prev m prev))]) ++ ws)
              | None => None
              end
            else None
          | None => None
          end
        else None
      | _ => None
      end
    end
  end.
Fixpoint nodup_b (l : list N) : bool := match l with [] => true | x :: r => negb (in_b x r) && nodup_b r end.
Definition foot (x : mblk * list ovf) : list N := b_bid (fst x) :: flat_map ofoot (snd x).
(** The mending writes, and memory. commit_blk of a block already committed fails. *)
Definition boot (e : env) (d : disk) : option (list write * st) :=
  match d (e_ssb e) with
  | BSsb None => None                                       (* :161 *)
  | BSsb (Some b) =>
    match scan (fuel e) e d (e_ssb e) (Some b) with
    | Some (l, ws) =>
      if nodup_b (e_ssb e :: flat_map foot l) then
        Some (ws, St (puts d ws) (Some b) (fold_left (fun f x => set (b_bid (fst x)) (Some (fst x)) f) l (fun _ => None))
                     (fold_left (fun f x => add_ovfs (snd x) f) l (fun _ => None)) (option_map (fun x => b_bid (fst x)) (hd_error (rev l)))
                     (fun x => in_b x (e_ssb e :: flat_map foot l)) (map (fun x => (b_type (fst x), b_bid (fst x))) l))
      else None
    | None => None
    end
  | _ => None
  end.
(** :175-199 format_ssb *)
Definition format (e : env) (d : disk) : st :=
  St (put1 d (e_ssb e, BSsb None)) None (fun _ => None) (fun _ => None) None (N.eqb (e_ssb e)) [].

(** ** What a client sees *)
(** :1141-1215 recover_meta_sub_type, recover_meta_block for every entry: block, type and content; [None]: the
    checksum assertion fails, or reading does. *)
Definition recover1 (e : env) (s : st) (x : nat * N) : option (N * nat * list Z) :=
  match s_metas s (snd x) with
  | None => None
  | Some m => match read_raw e s m with
              | None => None
              | Some l => if negb (e_docrc e (b_type m)) || Z.eqb (e_crc e l) (b_crc m) then Some (snd x, b_type m, if b_zip m then e_unzip e l else l) else None
              end
  end.
Definition recover (e : env) (s : st) : list (option (N * nat * list Z)) := map (recover1 e s) (s_subs s).
(** :1222-1250 read_sub_sb of one record: the bytes as they are on disk. *)
Definition read_sub1 (e : env) (s : st) (x : nat * N) : option (N * nat * list Z) :=
  match s_metas s (snd x) with
  | None => None
  | Some m => option_map (fun l => (snd x, b_type m, l)) (read_raw e s m)
  end.
