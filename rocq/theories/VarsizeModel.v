(** * Model of the variable size block allocator.
    Source: src/lib/blkalloc/varsize_blk_allocator.cpp and .h.
    [BlkAllocStatus], portions, the cache bitmap and the slab cache (SlabModel).  One call
    of [alloc] or [free] is one step; a sweep of the refill thread is one step, and may
    also run between the attempts of [alloc_blks_slab], where the code waits for it.  The
    sweep's session counters, which only decide when it stops, are replaced by an argument.
    Metrics, segments, test flips and the random first portion (a state field here) are
    not modelled.  A block id is its list of pieces; the chunk id is constant.
    [None] is a failed release assert or undefined behaviour. *)
From Coq Require Import NArith List Lia Bool.
From Verif Require Import Base SlabModel ExtSpec BitmapModel.
Import ListNotations.
Local Open Scope N_scope.

(** bitmap_blk_allocator.h:120 and blk_allocator.h:66, varsize_blk_allocator.h:120-136. *)
Record vcfg := VCfg { vc_total : N; vc_bpp : N; vc_slabs : bool }.

(** varsize_blk_allocator.h:247-268: [m_cache_bm], [m_fb_cache], the allocated block
    counter (blk_allocator.h), [m_start_portion_num]. *)
Record vst := VSt { v_bm : bits; v_cache : cache; v_alloced : N; v_start : N }.

(** sisl::Bitset::get_next_contiguous_n_reset_bits(start, end, min, max): first bit and
    number of bits found, 0 bits when there is none.  External code, so a parameter. *)
Definition scanner := bits -> N -> N -> N -> N -> N * N.

(** blk.h:250-264, the hints the allocator reads. *)
Record hints := Hints { h_temp : nat; h_contig : bool; h_partial : bool; h_min : N }.

(** blk_allocator.h: the statuses [alloc] returns. *)
Inductive vstatus := VSuccess | VPartial | VFailed | VSpaceFull.

(** blk.h:170-180 and blk.cpp:79-89: six pieces at most. *)
Definition has_room (out : list ext) : bool := Nat.ltb (length out) 6.

Definition is_set (bm : bits) (x : ext) : bool := forallb bm (blks_of x).

(** bitmap_blk_allocator.h:81 *)
Definition num_portions (cf : vcfg) : N := (vc_total cf - 1) / vc_bpp cf + 1.

(** varsize_blk_allocator.h:135-139 *)
Definition highest_slab (s : vst) : N :=
  match length (v_cache s) with O => 0 | S n => 2 ^ N.of_nat n end.

(** varsize_blk_allocator.cpp:697-725, [free_blks_direct]: release assert that the bits
    of each piece are set, then clear them. *)
Fixpoint free_direct (bm : bits) (l : list ext) : option bits :=
  match l with
  | [] => Some bm
  | x :: r => if is_set bm x then free_direct (reset_bits bm x) r else None
  end.

Definition ent_ext (e : entry) : ext := (e_num e, e_cnt e).

(** One sweep: portion, number of rounds, the session's requirements, level. *)
Record sweep := Sweep { sw_portion : N; sw_rounds : nat; sw_rq : list refill; sw_level : nat }.

(** varsize_blk_allocator.cpp:347-373, the loop of [fill_cache_in_portion]. *)
Fixpoint fill_rounds (scan : scanner) (k : nat) (bm : bits) (c : cache) (rq : list refill) (cur en : N) (lvl : nat)
  : option (bits * cache) :=
  match k with
  | O => Some (bm, c)
  | S k' =>
    if cur <=? en then
      let (s, n) := scan bm cur en 1 (en - cur + 1) in
      if n =? 0 then Some (bm, c)
      else match try_fill_cache c rq s n lvl false with
           | None => None
           | Some (c', rq', added) =>
             let bm' := if 0 <? added then set_bits bm (s, added) else bm in
             fill_rounds scan k' bm' c' rq' (s + n) en lvl
           end
    else Some (bm, c)
  end.

(** :334-345 *)
Definition fill_in_portion (cf : vcfg) (scan : scanner) (bm : bits) (c : cache) (w : sweep) : option (bits * cache) :=
  let cur := sw_portion w * vc_bpp cf in
  fill_rounds scan (sw_rounds w) bm c (sw_rq w) cur (cur + vc_bpp cf - 1) (sw_level w).

(** :280-332, [fill_cache]: some portions one after the other. *)
Fixpoint fill_cache (cf : vcfg) (scan : scanner) (bm : bits) (c : cache) (ws : list sweep) : option (bits * cache) :=
  match ws with
  | [] => Some (bm, c)
  | w :: r => match fill_in_portion cf scan bm c w with
              | None => None
              | Some (bm', c') => fill_cache cf scan bm' c' r
              end
  end.

(** :503-510, [free_excess_blocks]. *)
Definition free_excess_blocks (bm : bits) (ex : list entry) : option bits := free_direct bm (map ent_ext ex).

(** :512-518, [discard_current_allocation]. *)
Definition discard (bm : bits) (c : cache) (rs : alloc_resp) : option (bits * cache) :=
  match try_free_list c (rs_out rs) (rs_excess rs) with
  | None => None
  | Some (c', ex) => match free_excess_blocks bm ex with
                     | None => None
                     | Some bm' => Some (bm', c')
                     end
  end.

(** :538-556, putting the response's pieces in the block id: pieces taken, pieces left
    over for want of room. *)
Fixpoint take_pieces (out : list ext) (es : list entry) : list ext * list entry :=
  match es with
  | [] => (out, [])
  | e :: r => if has_room out then take_pieces (out ++ [ent_ext e]) r else (out, es)
  end.

(** :521-570, the attempts of [alloc_blks_slab].  Each element of [tries] is one attempt;
    it lists the sweeps that run if the attempt fails and another follows.  The result is
    the bitmap, cache, block id and whether the loop was left by [break]; the number of
    blocks allocated is that of the block id, which is empty at the start. *)
Fixpoint slab_attempts (cf : vcfg) (scan : scanner) (req : alloc_req) (h : hints) (tries : list (list sweep))
  (bm : bits) (c : cache) (out : list ext) : option (bits * cache * list ext) :=
  match tries with
  | [] => Some (bm, c, out)
  | ws :: rest =>
    if has_room out then
      match try_alloc_blks c req resp0 with
      | None => None
      | Some (c1, rs, st) =>
        let again bm' c' out' :=
          match rest with
          | [] => Some (bm', c', out')
          | _ => match fill_cache cf scan bm' c' ws with
                 | None => None
                 | Some (bm2, c2) => slab_attempts cf scan req h rest bm2 c2 out'
                 end
          end in
        let give_up out' :=
          match discard bm c1 rs with
          | None => None
          | Some (bm1, c2) => again bm1 c2 out'
          end in
        let use := match st with
                   | SUCCESS => true
                   | PARTIAL => h_partial h || negb (h_contig h)
                   | FAILED => false
                   end in
        if use then
          let (out1, left) := take_pieces out (rs_out rs) in
          match left with
          | [] => match free_excess_blocks bm (rs_excess rs) with
                  | None => None
                  | Some bm1 => Some (bm1, c1, out1)
                  end
          | _ => if h_partial h then
                   match free_excess_blocks bm (rs_excess rs ++ left) with
                   | None => None
                   | Some bm1 => Some (bm1, c1, out1)
                   end
                 else give_up []
          end
        else give_up out
      end
    else Some (bm, c, out)
  end.

(** :599-619, the inner loop of [alloc_blks_direct] in one portion; each round takes one
    piece, so 6 rounds suffice ([has_room]). *)
Fixpoint direct_rounds (scan : scanner) (k : nat) (bm : bits) (cur en minb remain : N) (out : list ext)
  : bits * N * list ext :=
  match k with
  | O => (bm, remain, out)
  | S k' =>
    if negb (remain =? 0) && (cur <=? en) && has_room out then
      let (s, n) := scan bm cur en (N.min minb remain) remain in
      if n =? 0 then (bm, remain, out)
      else direct_rounds scan k' (set_bits bm (s, n)) (s + n) en minb (remain - n) (out ++ [(s, n)])
    else (bm, remain, out)
  end.

(** :592-630, the outer loop; [fuel] is the number of portions. *)
Fixpoint direct_portions (cf : vcfg) (scan : scanner) (fuel : nat) (first p minb maxp remain : N) (bm : bits)
  (out : list ext) : bits * N * list ext * N :=
  match fuel with
  | O => (bm, remain, out, p)
  | S fuel' =>
    let cur := p * vc_bpp cf in
    let '(bm1, rem1, out1) := direct_rounds scan 7 bm cur (cur + vc_bpp cf - 1) minb remain out in
    let p1 := if rem1 =? 0 then p else if p + 1 =? num_portions cf then 0 else p + 1 in
    if negb (rem1 =? 0) && negb (p1 =? first) && (N.of_nat (length out1) <? maxp)
    then direct_portions cf scan fuel' first p1 minb maxp rem1 bm1 out1
    else (bm1, rem1, out1, p1)
  end.

(** :576-637, [alloc_blks_direct]. *)
Definition alloc_direct (cf : vcfg) (scan : scanner) (nblks : N) (h : hints) (bm : bits) (start : N) (out : list ext)
  : bits * N * list ext * N :=
  let maxp := if h_contig h then 1 else 6 in
  let minb := if h_contig h && negb (h_partial h) then nblks else N.min nblks (h_min h) in
  direct_portions cf scan (N.to_nat (num_portions cf)) start start minb maxp nblks bm out.

(** :489-499, the request [alloc_blks_slab] makes. *)
Definition slab_req (s : vst) (nblks : N) (h : hints) : alloc_req :=
  Req nblks (h_temp h) (h_contig h) (find_slab (h_min h)) (length (v_cache s) - 1).

(** :398-449, [alloc] with an empty MultiBlkId; the pieces in it at return are part of the
    result whatever the status. *)
Definition alloc (cf : vcfg) (scan : scanner) (s : vst) (nblks : N) (h : hints) (tries : list (list sweep))
  : option (vst * vstatus * list ext) :=
  let slab :=
    if vc_slabs cf && (nblks <=? highest_slab s)
    then slab_attempts cf scan (slab_req s nblks h) h tries (v_bm s) (v_cache s) []
    else Some (v_bm s, v_cache s, []) in
  match slab with
  | None => None
  | Some (bm1, c1, out1) =>
    let got := blocks out1 in
    if nblks <=? got then Some (VSt bm1 c1 (v_alloced s + got) (v_start s), VSuccess, out1)
    else
      let '(bm2, rem, out2, p) := alloc_direct cf scan (nblks - got) h bm1 (v_start s) out1 in
      let got2 := got + (nblks - got - rem) in
      if got2 =? nblks then Some (VSt bm2 c1 (v_alloced s + got2) p, VSuccess, out2)
      else if negb (got2 =? 0) && h_partial h then Some (VSt bm2 c1 (v_alloced s + got2) p, VPartial, out2)
      else match free_direct bm2 out2 with
           | None => None
           | Some bm3 => Some (VSt bm3 c1 (v_alloced s) p, if h_contig h then VFailed else VSpaceFull, out2)
           end
  end.

(** :670-695, [free_blks_slab]. *)
Fixpoint free_slab_pieces (c : cache) (l : list ext) (ex : list entry) : option (cache * list entry) :=
  match l with
  | [] => Some (c, ex)
  | x :: r => match try_free_blks c (Entry (fst x) (snd x) 2) ex with
              | None => None
              | Some (c', ex') => free_slab_pieces c' r ex'
              end
  end.

(** :660-668, [free]; which path is taken depends on the first piece only, because
    [blk_count] of a MultiBlkId is that of its first piece.  free_on_disk is in BitmapModel. *)
Definition free (cf : vcfg) (s : vst) (l : list ext) : option vst :=
  let first := match l with [] => 0 | x :: _ => snd x end in
  if vc_slabs cf && (first <=? highest_slab s) then
    match free_slab_pieces (v_cache s) l [] with
    | None => None
    | Some (c, ex) => match free_direct (v_bm s) (map ent_ext ex) with
                      | None => None
                      | Some bm => Some (VSt bm c (v_alloced s - blocks l) (v_start s))
                      end
    end
  else match free_direct (v_bm s) l with
       | None => None
       | Some bm => Some (VSt bm (v_cache s) (v_alloced s - blocks l) (v_start s))
       end.

(** :641-658, [reserve_on_cache], of the piece it is given. *)
Definition reserve_on_cache (s : vst) (x : ext) : vst :=
  VSt (set_bits (v_bm s) x) (v_cache s) (v_alloced s + snd x) (v_start s).

(** A sweep by the refill thread. *)
Definition do_sweep (cf : vcfg) (scan : scanner) (s : vst) (ws : list sweep) : option vst :=
  match fill_cache cf scan (v_bm s) (v_cache s) ws with
  | None => None
  | Some (bm, c) => Some (VSt bm c (v_alloced s) (v_start s))
  end.

(** An executable scanner: first fit. [run_len] counts clear bits from [s], at most [m]. *)
Fixpoint run_len (bm : bits) (s : N) (m : nat) : N :=
  match m with O => 0 | S m' => if bm s then 0 else 1 + run_len bm (s + 1) m' end.
Fixpoint scan_from (bm : bits) (s : N) (left : nat) (minb maxb : N) : N * N :=
  match left with
  | O => (0, 0)
  | S left' => let r := run_len bm s (N.to_nat (N.min (N.of_nat left) maxb)) in
               if minb <=? r then (s, r) else scan_from bm (s + 1) left' minb maxb
  end.
Definition first_fit (total : N) : scanner := fun bm cur en minb maxb =>
  scan_from bm cur (N.to_nat (N.min (en + 1) total - cur)) minb maxb.
