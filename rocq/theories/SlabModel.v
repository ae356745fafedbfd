(** * Model of the free-block cache (slab queues).
    Source: src/lib/blkalloc/blk_cache.h, blk_cache_queue.h and blk_cache_queue.cpp.

    Metrics and logging are not modelled.  The queues are folly::MPMCQueue; each
    is a bounded FIFO here and one cache call is one atomic step.  Undefined
    behaviour (indexing a vector outside its size, shifting by a negative count)
    and, for the loops that carry fuel, exhausted fuel, are the outcome [None]. *)
From Coq Require Import NArith List Lia Bool.
From Verif Require Import Base.
Import ListNotations.
Local Open Scope N_scope.

(** blk_cache.h:75-104, [blk_cache_entry]: block number, number of blocks and
    temperature.  Field widths (32, 16, 8 bits) are not applied to the record;
    16-bit counters are applied where the code computes them ([w16]). *)
Record entry := Entry { e_num : N; e_cnt : N; e_temp : nat }.

(** blk_cache_queue.h:40-90 and blk_cache_queue.cpp:299-309: one slab has a size
    and one bounded queue (capacity, contents oldest first) per level. *)
Record level := Level { lv_cap : nat; lv_q : list entry }.
Record slab := Slab { sl_size : N; sl_levels : list level }.

(** blk_cache_queue.h, [FreeBlkCacheQueue::m_slab_queues]. *)
Definition cache := list slab.

(** [blk_count_t] is uint16_t (blk.h). *)
Definition w16 (n : N) : N := n mod 65536.

(** blk_cache.h:38-45, [nblks_to_slab_tbl], copied literally. *)
Definition nblks_to_slab_tbl : list nat := (
  [0; 0; 1; 2; 2; 3; 3; 3; 3; 4; 4; 4; 4; 4; 4; 4; 4; 5; 5; 5; 5; 5; 5; 5; 5; 5; 5; 5; 5; 5; 5; 5;
    5; 6; 6; 6; 6; 6; 6; 6; 6; 6; 6; 6; 6; 6; 6; 6; 6; 6; 6; 6; 6; 6; 6; 6; 6; 6; 6; 6; 6; 6; 6; 6;
    6; 7; 7; 7; 7; 7; 7; 7; 7; 7; 7; 7; 7; 7; 7; 7; 7; 7; 7; 7; 7; 7; 7; 7; 7; 7; 7; 7; 7; 7; 7; 7;
    7; 7; 7; 7; 7; 7; 7; 7; 7; 7; 7; 7; 7; 7; 7; 7; 7; 7; 7; 7; 7; 7; 7; 7; 7; 7; 7; 7; 7; 7; 7; 7;
    7; 8; 8; 8; 8; 8; 8; 8; 8; 8; 8; 8; 8; 8; 8; 8; 8; 8; 8; 8; 8; 8; 8; 8; 8; 8; 8; 8; 8; 8; 8; 8;
    8; 8; 8; 8; 8; 8; 8; 8; 8; 8; 8; 8; 8; 8; 8; 8; 8; 8; 8; 8; 8; 8; 8; 8; 8; 8; 8; 8; 8; 8; 8; 8;
    8; 8; 8; 8; 8; 8; 8; 8; 8; 8; 8; 8; 8; 8; 8; 8; 8; 8; 8; 8; 8; 8; 8; 8; 8; 8; 8; 8; 8; 8; 8; 8;
    8; 8; 8; 8; 8; 8; 8; 8; 8; 8; 8; 8; 8; 8; 8; 8; 8; 8; 8; 8; 8; 8; 8; 8; 8; 8; 8; 8; 8; 8; 8; 8; 8])%nat.

(** blk_cache.h:48-72, [nblks_to_round_down_slab_tbl], copied literally. *)
Definition nblks_to_round_down_slab_tbl : list (nat * N) :=
  [(0%nat, 0); (0%nat, 0); (1%nat, 0); (1%nat, 1); (2%nat, 0); (2%nat, 1); (2%nat, 2); (2%nat, 3);
    (3%nat, 0); (3%nat, 1); (3%nat, 2); (3%nat, 3); (3%nat, 4); (3%nat, 5); (3%nat, 6); (3%nat, 7);
    (4%nat, 0); (4%nat, 1); (4%nat, 2); (4%nat, 3); (4%nat, 4); (4%nat, 5); (4%nat, 6); (4%nat, 7);
    (4%nat, 8); (4%nat, 9); (4%nat, 10); (4%nat, 11); (4%nat, 12); (4%nat, 13); (4%nat, 14);
    (4%nat, 15); (5%nat, 0); (5%nat, 1); (5%nat, 2); (5%nat, 3); (5%nat, 4); (5%nat, 5); (5%nat, 6);
    (5%nat, 7); (5%nat, 8); (5%nat, 9); (5%nat, 10); (5%nat, 11); (5%nat, 12); (5%nat, 13);
    (5%nat, 14); (5%nat, 15); (5%nat, 16); (5%nat, 17); (5%nat, 18); (5%nat, 19); (5%nat, 20);
    (5%nat, 21); (5%nat, 22); (5%nat, 23); (5%nat, 24); (5%nat, 25); (5%nat, 26); (5%nat, 27);
    (5%nat, 28); (5%nat, 29); (5%nat, 30); (5%nat, 31); (6%nat, 0); (6%nat, 1); (6%nat, 2);
    (6%nat, 3); (6%nat, 4); (6%nat, 5); (6%nat, 6); (6%nat, 7); (6%nat, 8); (6%nat, 9); (6%nat, 10);
    (6%nat, 11); (6%nat, 12); (6%nat, 13); (6%nat, 14); (6%nat, 15); (6%nat, 16); (6%nat, 17);
    (6%nat, 18); (6%nat, 19); (6%nat, 20); (6%nat, 21); (6%nat, 22); (6%nat, 23); (6%nat, 24);
    (6%nat, 25); (6%nat, 26); (6%nat, 27); (6%nat, 28); (6%nat, 29); (6%nat, 30); (6%nat, 31);
    (6%nat, 32); (6%nat, 33); (6%nat, 34); (6%nat, 35); (6%nat, 36); (6%nat, 37); (6%nat, 38);
    (6%nat, 39); (6%nat, 40); (6%nat, 41); (6%nat, 42); (6%nat, 43); (6%nat, 44); (6%nat, 45);
    (6%nat, 46); (6%nat, 47); (6%nat, 48); (6%nat, 49); (6%nat, 50); (6%nat, 51); (6%nat, 52);
    (6%nat, 53); (6%nat, 54); (6%nat, 55); (6%nat, 56); (6%nat, 57); (6%nat, 58); (6%nat, 59);
    (6%nat, 60); (6%nat, 61); (6%nat, 62); (6%nat, 63); (7%nat, 0); (7%nat, 1); (7%nat, 2);
    (7%nat, 3); (7%nat, 4); (7%nat, 5); (7%nat, 6); (7%nat, 7); (7%nat, 8); (7%nat, 9); (7%nat, 10);
    (7%nat, 11); (7%nat, 12); (7%nat, 13); (7%nat, 14); (7%nat, 15); (7%nat, 16); (7%nat, 17);
    (7%nat, 18); (7%nat, 19); (7%nat, 20); (7%nat, 21); (7%nat, 22); (7%nat, 23); (7%nat, 24);
    (7%nat, 25); (7%nat, 26); (7%nat, 27); (7%nat, 28); (7%nat, 29); (7%nat, 30); (7%nat, 31);
    (7%nat, 32); (7%nat, 33); (7%nat, 34); (7%nat, 35); (7%nat, 36); (7%nat, 37); (7%nat, 38);
    (7%nat, 39); (7%nat, 40); (7%nat, 41); (7%nat, 42); (7%nat, 43); (7%nat, 44); (7%nat, 45);
    (7%nat, 46); (7%nat, 47); (7%nat, 48); (7%nat, 49); (7%nat, 50); (7%nat, 51); (7%nat, 52);
    (7%nat, 53); (7%nat, 54); (7%nat, 55); (7%nat, 56); (7%nat, 57); (7%nat, 58); (7%nat, 59);
    (7%nat, 60); (7%nat, 61); (7%nat, 62); (7%nat, 63); (7%nat, 64); (7%nat, 65); (7%nat, 66);
    (7%nat, 67); (7%nat, 68); (7%nat, 69); (7%nat, 70); (7%nat, 71); (7%nat, 72); (7%nat, 73);
    (7%nat, 74); (7%nat, 75); (7%nat, 76); (7%nat, 77); (7%nat, 78); (7%nat, 79); (7%nat, 80);
    (7%nat, 81); (7%nat, 82); (7%nat, 83); (7%nat, 84); (7%nat, 85); (7%nat, 86); (7%nat, 87);
    (7%nat, 88); (7%nat, 89); (7%nat, 90); (7%nat, 91); (7%nat, 92); (7%nat, 93); (7%nat, 94);
    (7%nat, 95); (7%nat, 96); (7%nat, 97); (7%nat, 98); (7%nat, 99); (7%nat, 100); (7%nat, 101);
    (7%nat, 102); (7%nat, 103); (7%nat, 104); (7%nat, 105); (7%nat, 106); (7%nat, 107); (7%nat, 108);
    (7%nat, 109); (7%nat, 110); (7%nat, 111); (7%nat, 112); (7%nat, 113); (7%nat, 114); (7%nat, 115);
    (7%nat, 116); (7%nat, 117); (7%nat, 118); (7%nat, 119); (7%nat, 120); (7%nat, 121); (7%nat, 122);
    (7%nat, 123); (7%nat, 124); (7%nat, 125); (7%nat, 126); (7%nat, 127); (8%nat, 0)].

(** blk_cache.h:303-308, [find_slab].  [nblks] is a uint16_t; sisl::logBase2 is
    the floor of the base-2 logarithm. *)
Definition find_slab (nblks : N) : nat :=
  let n := w16 nblks in
  if 257 <=? n then S (N.to_nat (N.log2 (n - 1)))
  else nth (N.to_nat n) nblks_to_slab_tbl O.

(** blk_cache.h:310-316, [find_round_down_slab].  For 65535 the argument wraps to
    0, the slab index becomes -1 and the shift is undefined: [None]. *)
Definition find_round_down_slab (nblks : N) : option (nat * N) :=
  let n := w16 nblks in
  if 257 <=? n then
    match find_slab (n + 1) with
    | O => None
    | S s => Some (s, n - 2 ^ N.of_nat s)
    end
  else Some (nth (N.to_nat n) nblks_to_round_down_slab_tbl (O, 0)).

(** folly::MPMCQueue::write on one level: refuses when full. *)
Definition level_write (l : level) (e : entry) : option level :=
  if Nat.ltb (length (lv_q l)) (lv_cap l) then Some (Level (lv_cap l) (lv_q l ++ [e])) else None.

(** folly::MPMCQueue::read on one level: refuses when empty. *)
Definition level_read (l : level) : option (entry * level) :=
  match lv_q l with
  | [] => None
  | e :: q => Some (e, Level (lv_cap l) q)
  end.

(** Replace the [i]-th element. *)
Fixpoint set_nth {A} (i : nat) (x : A) (l : list A) : list A :=
  match l, i with
  | [], _ => []
  | _ :: t, O => x :: t
  | h :: t, S j => h :: set_nth j x t
  end.

(** The order in which blk_cache_queue.cpp:311-325 and :327-342 visit levels: the
    clamped start level, then the following ones cyclically until back at start. *)
Definition level_order (n : nat) (start : nat) : list nat :=
  map (fun d => Nat.modulo (start + d) n) (seq 0 n).

(** blk_cache_queue.cpp:312-313 and :329-330: clamp to the last level. *)
Definition clamp_level (n : nat) (l : nat) : nat := if Nat.leb n l then (n - 1)%nat else l.

(** The loop of :314-323. *)
Fixpoint push_levels (order : list nat) (ls : list level) (e : entry) : option (list level) :=
  match order with
  | [] => None
  | i :: rest =>
      match nth_error ls i with
      | None => None
      | Some l => match level_write l e with
                  | Some l' => Some (set_nth i l' ls)
                  | None => push_levels rest ls e
                  end
      end
  end.

(** blk_cache_queue.cpp:311-325, [SlabCacheQueue::push].  Outer [None]: no level
    exists (index -1, undefined).  Inner [None]: every level tried is full. *)
Definition slab_push (s : slab) (e : entry) (only : bool) : option (option slab) :=
  let n := length (sl_levels s) in
  match n with
  | O => None
  | _ =>
    let start := clamp_level n (e_temp e) in
    let order := if only then [start] else level_order n start in
    match push_levels order (sl_levels s) e with
    | Some ls => Some (Some (Slab (sl_size s) ls))
    | None => Some None
    end
  end.

(** The loop of :331-340. *)
Fixpoint pop_levels (order : list nat) (ls : list level) : option (entry * list level) :=
  match order with
  | [] => None
  | i :: rest =>
      match nth_error ls i with
      | None => None
      | Some l => match level_read l with
                  | Some (e, l') => Some (e, set_nth i l' ls)
                  | None => pop_levels rest ls
                  end
      end
  end.

(** blk_cache_queue.cpp:327-342, [SlabCacheQueue::pop] with only_this_level false
    (the only way it is called).  The level number it returns feeds only the
    need_refill flag, which is not modelled. *)
Definition slab_pop (s : slab) (lvl : nat) : option (option (entry * slab)) :=
  let n := length (sl_levels s) in
  match n with
  | O => None
  | _ =>
    match pop_levels (level_order n (clamp_level n lvl)) (sl_levels s) with
    | Some (e, ls) => Some (Some (e, Slab (sl_size s) ls))
    | None => Some None
    end
  end.

(** blk_cache_queue.cpp:279-287, [push_slab]: [true] when pushed. *)
Definition push_slab (c : cache) (i : nat) (e : entry) (only : bool) : option (cache * bool) :=
  match nth_error c i with
  | None => None
  | Some s => match slab_push s e only with
              | None => None
              | Some None => Some (c, false)
              | Some (Some s') => Some (set_nth i s' c, true)
              end
  end.

(** blk_cache_queue.cpp:289-297, [pop_slab]. *)
Definition pop_slab (c : cache) (i : nat) (lvl : nat) : option (cache * option entry) :=
  match nth_error c i with
  | None => None
  | Some s => match slab_pop s lvl with
              | None => None
              | Some None => Some (c, None)
              | Some (Some (e, s')) => Some (set_nth i s' c, Some e)
              end
  end.

(** blk_cache_queue.cpp:96-123, [try_free_blks(entry)].  [fuel] bounds the loop;
    each round leaves less than half, so 17 rounds are enough for a 16-bit count
    ([try_free_blks]).  The returned number of zombied blocks is not used by any
    caller and is not modelled; excess entries are appended to [ex]. *)
Fixpoint free_loop (fuel : nat) (c : cache) (e : entry) (ex : list entry) : option (cache * list entry) :=
  if e_cnt e =? 0 then Some (c, ex)
  else match fuel with
  | O => None
  | S fuel' =>
    match find_round_down_slab (e_cnt e) with
    | None => None
    | Some (i, excess) =>
      match nth_error c i with
      | None => None
      | Some s =>
        let piece := Entry (e_num e) (sl_size s) (e_temp e) in
        match push_slab c i piece false with
        | None => None
        | Some (c', pushed) =>
          let ex' := if pushed then ex else ex ++ [piece] in
          if excess =? 0 then Some (c', ex')
          else free_loop fuel' c' (Entry (e_num e + sl_size s) excess (e_temp e)) ex'
        end
      end
    end
  end.
Definition try_free_blks (c : cache) (e : entry) (ex : list entry) : option (cache * list entry) :=
  free_loop 17 c e ex.

(** blk_cache_queue.cpp:125-134, [try_free_blks(vector)]. *)
Fixpoint try_free_list (c : cache) (es : list entry) (ex : list entry) : option (cache * list entry) :=
  match es with
  | [] => Some (c, ex)
  | e :: rest => match try_free_blks c e ex with
                 | None => None
                 | Some (c', ex') => try_free_list c' rest ex'
                 end
  end.

(** blk_cache.h:107-116, [blk_cache_alloc_req]. *)
Record alloc_req := Req { r_nblks : N; r_level : nat; r_contig : bool; r_min : nat; r_max : nat }.

(** blk_cache.h:118-136, [blk_cache_alloc_resp] (without nblks_zombied and
    need_refill, which carry no blocks). *)
Record alloc_resp := Resp { rs_alloced : N; rs_out : list entry; rs_excess : list entry }.
Definition resp0 : alloc_resp := Resp 0 [] [].

Inductive status := SUCCESS | PARTIAL | FAILED.

(** blk_cache_queue.h:65, [entries_needed], 32-bit arithmetic on [nblks - 1]; it is
    only called with nblks >= 1. *)
Definition entries_needed (s : slab) (nblks : N) : N := (nblks - 1) / sl_size s + 1.

(** [out_blks.back().set_blk_count(k)]. *)
Fixpoint set_last_cnt (l : list entry) (k : N) : list entry :=
  match l with
  | [] => []
  | [e] => [Entry (e_num e) k (e_temp e)]
  | e :: t => e :: set_last_cnt t k
  end.

(** [out_blks.back()]; [None] when empty (undefined). *)
Fixpoint last_entry (l : list entry) : option entry :=
  match l with [] => None | [e] => Some e | _ :: t => last_entry t end.

(** blk_cache_queue.cpp:190-211, the lambda [free_excess]. *)
Definition free_excess (c : cache) (ssize : N) (req : alloc_req) (rs : alloc_resp) (num_allocated : N)
  : option (cache * alloc_resp) :=
  let alloced := w16 (rs_alloced rs + num_allocated) in
  if r_nblks req <? alloced then
    let residue := alloced - r_nblks req in
    let needed := ssize - residue in
    match last_entry (rs_out rs) with
    | None => None
    | Some l =>
      match try_free_blks c (Entry (e_num l + needed) residue (e_temp l)) (rs_excess rs) with
      | None => None
      | Some (c', ex') => Some (c', Resp (alloced - residue) (set_last_cnt (rs_out rs) needed) ex')
      end
    end
  else Some (c, Resp alloced (rs_out rs) (rs_excess rs)).

(** blk_cache_queue.cpp:213-229, the pop loop: [n] rounds left, [i] rounds done,
    [got] the 16-bit num_allocated. *)
Fixpoint alloc_loop (n : nat) (first : bool) (c : cache) (idx : nat) (ssize : N) (req : alloc_req)
  (rs : alloc_resp) (got : N) : option (cache * alloc_resp * status) :=
  match n with
  | O => match free_excess c ssize req rs got with
         | None => None
         | Some (c', rs') => Some (c', rs', SUCCESS)
         end
  | S n' =>
    match pop_slab c idx (r_level req) with
    | None => None
    | Some (c', Some e) =>
        alloc_loop n' false c' idx ssize req (Resp (rs_alloced rs) (rs_out rs ++ [e]) (rs_excess rs))
                   (w16 (got + ssize))
    | Some (c', None) =>
        match free_excess c' ssize req rs got with
        | None => None
        | Some (c'', rs') => Some (c'', rs', if first && (got =? 0) then FAILED else PARTIAL)
        end
    end
  end.

(** blk_cache_queue.cpp:182-230, [try_alloc_in_slab]. *)
Definition try_alloc_in_slab (c : cache) (idx : nat) (req : alloc_req) (rs : alloc_resp)
  : option (cache * alloc_resp * status) :=
  if r_nblks req <=? rs_alloced rs then Some (c, rs, SUCCESS)
  else match nth_error c idx with
  | None => None
  | Some s =>
    let nentries := entries_needed s (r_nblks req - rs_alloced rs) in
    if r_contig req && (1 <? nentries) then Some (c, rs, FAILED)
    else alloc_loop (N.to_nat nentries) true c idx (sl_size s) req rs 0
  end.

(** blk_cache_queue.cpp:67-70 and :243-246: give back a partial result of a
    contiguous request. *)
Definition undo_partial (req : alloc_req) (st : status) (c : cache) (rs : alloc_resp)
  : option (cache * alloc_resp) :=
  match st with
  | PARTIAL =>
      if r_contig req then
        match try_free_list c (rs_out rs) (rs_excess rs) with
        | None => None
        | Some (c', ex') => Some (c', Resp (rs_alloced rs) [] ex')
        end
      else Some (c, rs)
  | _ => Some (c, rs)
  end.

(** Status of an exhausted search, :235 and :254. *)
Definition end_status (rs : alloc_resp) : status := if 0 <? rs_alloced rs then PARTIAL else FAILED.

(** blk_cache_queue.cpp:232-249, [break_up]; [fuel] is the number of slabs. *)
Fixpoint break_up (fuel : nat) (c : cache) (idx : nat) (req : alloc_req) (rs : alloc_resp)
  : option (cache * alloc_resp * status) :=
  if Nat.leb (length c - 1) idx then Some (c, rs, end_status rs)
  else match fuel with
  | O => None
  | S fuel' =>
    match try_alloc_in_slab c (S idx) req rs with
    | None => None
    | Some (c', rs', SUCCESS) => Some (c', rs', SUCCESS)
    | Some (c', rs', st) =>
        match undo_partial req st c' rs' with
        | None => None
        | Some (c'', rs'') => break_up fuel' c'' (S idx) req rs''
        end
    end
  end.

(** blk_cache_queue.cpp:251-262, [merge_down].  Below slab 0 the uint16_t index
    wraps to 65535 and the vector access is undefined: [None]. *)
Fixpoint merge_down (c : cache) (idx : nat) (req : alloc_req) (rs : alloc_resp)
  : option (cache * alloc_resp * status) :=
  if Nat.eqb idx (r_min req) then Some (c, rs, end_status rs)
  else match idx with
  | O => if r_nblks req <=? rs_alloced rs then Some (c, rs, SUCCESS) else None
  | S j =>
    match try_alloc_in_slab c j req rs with
    | None => None
    | Some (c', rs', SUCCESS) => Some (c', rs', SUCCESS)
    | Some (c', rs', _) => merge_down c' j req rs'
    end
  end.

(** blk_cache_queue.cpp:57-94, [try_alloc_blks]. *)
Definition try_alloc_blks (c : cache) (req : alloc_req) (rs : alloc_resp)
  : option (cache * alloc_resp * status) :=
  let idx := Nat.min (find_slab (r_nblks req)) (r_max req) in
  match try_alloc_in_slab c idx req rs with
  | None => None
  | Some (c1, rs1, SUCCESS) => Some (c1, rs1, SUCCESS)
  | Some (c1, rs1, st) =>
    match undo_partial req st c1 rs1 with
    | None => None
    | Some (c1', rs1') =>
      match break_up (length c) c1' idx req rs1' with
      | None => None
      | Some (c2, rs2, SUCCESS) => Some (c2, rs2, SUCCESS)
      | Some (c2, rs2, st2) =>
        if r_contig req then Some (c2, rs2, st2)
        else merge_down c2 idx req rs2
      end
    end
  end.

(** blk_cache.h:145-158, [blk_cache_refill_status]: required and refilled. *)
Record refill := Refill { rf_req : N; rf_done : N }.
Definition need_refill (r : refill) : bool := (0 <? rf_req r) && negb (rf_done r =? rf_req r).
Definition is_refill_done (r : refill) : bool := (rf_req r =? 0) || (rf_done r =? rf_req r).

(** blk_cache_queue.cpp:344-350 and :302-306, [entry_count] and total capacity. *)
Definition entry_count (s : slab) : nat := fold_right (fun l a => (length (lv_q l) + a)%nat) O (sl_levels s).
Definition entry_capacity (s : slab) : nat := fold_right (fun l a => (lv_cap l + a)%nat) O (sl_levels s).

(** blk_cache_queue.cpp:356-369, [open_session] when no other session is running;
    [thr] is the refill threshold of the slab. *)
Definition open_session (s : slab) (thr : nat) (entire : bool) : N :=
  if entire || Nat.ltb (entry_count s) thr then N.of_nat (entry_capacity s - entry_count s) else 0.

(** blk_cache_queue.cpp:264-271, [create_cache_fill_session]: slabs that need
    nothing get no slot. *)
Definition create_fill_session (c : cache) (thr : slab -> nat) (entire : bool) : list refill :=
  flat_map (fun s => let n := open_session s (thr s) entire in
                     if 0 <? n then [Refill n 0] else []) c.

(** blk_cache_queue.cpp:149-162, inner loop of [try_fill_cache] for slab [i];
    [fuel] bounds the rounds (each consumes at least one block).  Result: cache,
    requirements, next block, blocks remaining. *)
Fixpoint fill_slab (fuel : nat) (c : cache) (i : nat) (ssize : N) (rq : list refill) (num remain : N)
  (lvl : nat) (only : bool) : option (cache * list refill * N * N) :=
  if ssize <=? remain then
    match nth_error rq i with
    | None => None
    | Some r =>
      if need_refill r then
        match fuel with
        | O => None
        | S fuel' =>
          match push_slab c i (Entry num ssize lvl) only with
          | None => None
          | Some (c', false) => Some (c', set_nth i (Refill (rf_req r) (rf_req r)) rq, num, remain)
          | Some (c', true) =>
              fill_slab fuel' c' i ssize (set_nth i (Refill (rf_req r) (rf_done r + 1)) rq)
                        (num + ssize) (remain - ssize) lvl only
          end
        end
      else Some (c, rq, num, remain)
    end
  else Some (c, rq, num, remain).

(** blk_cache_queue.cpp:147-165, the outer loop from slab [i] down to 0. *)
Fixpoint fill_loop (c : cache) (i : nat) (rq : list refill) (num remain : N) (lvl : nat) (only : bool)
  : option (cache * list refill * N * N) :=
  match nth_error c i with
  | None => None
  | Some s =>
    match fill_slab (N.to_nat remain) c i (sl_size s) rq num remain lvl only with
    | None => None
    | Some (c', rq', num', remain') =>
      match nth_error rq' i with
      | None => None
      | Some _ =>
        match i with
        | O => Some (c', rq', num', remain')
        | S j => if remain' =? 0 then Some (c', rq', num', remain')
                 else fill_loop c' j rq' num' remain' lvl only
        end
      end
    end
  end.

(** blk_cache_queue.cpp:136-172, [try_fill_cache]; returns the new cache, the
    session's requirements and the number of blocks taken from the start of the
    offered range.  The session's progress counters are not modelled: they decide
    only when the sweep stops. *)
Definition try_fill_cache (c : cache) (rq : list refill) (start nblks : N) (lvl : nat) (only : bool)
  : option (cache * list refill * N) :=
  let i0 := find_slab nblks in
  let i := if Nat.leb (length c) i0 then (length c - 1)%nat else i0 in
  match fill_loop c i rq start nblks lvl only with
  | None => None
  | Some (c', rq', _, remain) => Some (c', rq', nblks - remain)
  end.

(** ** A client of the cache (not HomeStore code): it allocates, returns extents it
    holds, and may return a held extent in parts.  Excess entries, which the
    allocator puts back in its bitmap, are collected. *)
Record client := Client { cl_cache : cache; cl_live : list entry; cl_excess : list entry }.
Inductive client_op :=
| OpAlloc (req : alloc_req)
| OpFree (n : nat)            (* return the n-th held extent *)
| OpSplit (n : nat) (k : N).  (* treat the n-th held extent as two, the first of k blocks *)

Fixpoint remove_nth {A} (n : nat) (l : list A) : list A :=
  match l, n with
  | [], _ => []
  | _ :: t, O => t
  | h :: t, S m => h :: remove_nth m t
  end.

Definition client_step (s : client) (o : client_op) : option (client * option (status * alloc_resp)) :=
  match o with
  | OpAlloc req =>
      match try_alloc_blks (cl_cache s) req resp0 with
      | None => None
      | Some (c, rs, st) => Some (Client c (cl_live s ++ rs_out rs) (cl_excess s ++ rs_excess rs), Some (st, rs))
      end
  | OpFree n =>
      match nth_error (cl_live s) n with
      | None => Some (s, None)
      | Some e =>
        match try_free_blks (cl_cache s) e (cl_excess s) with
        | None => None
        | Some (c, ex) => Some (Client c (remove_nth n (cl_live s)) ex, None)
        end
      end
  | OpSplit n k =>
      match nth_error (cl_live s) n with
      | Some e =>
        if (0 <? k) && (k <? e_cnt e) then
          Some (Client (cl_cache s)
                  (Entry (e_num e) k (e_temp e) :: Entry (e_num e + k) (e_cnt e - k) (e_temp e) ::
                   remove_nth n (cl_live s)) (cl_excess s), None)
        else Some (s, None)
      | None => Some (s, None)
      end
  end.

Fixpoint client_run (s : client) (ops : list client_op) : option client :=
  match ops with
  | [] => Some s
  | o :: r => match client_step s o with None => None | Some (s', _) => client_run s' r end
  end.
