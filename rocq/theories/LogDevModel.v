(** * Model of the log device and its log stores.
    Source: src/lib/logstore/log_dev.cpp, log_store.cpp.
    Groups are whole: LogGroupProperties shows that a group reads back record for record and
    that a torn one is not handed out.  The device offset of a group is represented by the
    index of its first record: both grow together (JournalProperties, C15), a key
    {from_idx, dev_offset} always pairs them, and reading at an offset finds that group.
    All operations below run under the flush guard, one at a time; [append] does not, but
    only adds at the end of the pending records.  Fault containment, statistics and the
    pending request counters are left out.  [None] is a failed assertion or an access to a
    record that is not there. *)
From Coq Require Import NArith ZArith List Bool.
Import ListNotations.
Open Scope Z_scope.

Notation data := (list N).
Notation entry := (N * Z * data)%type.      (* store, lsn, data *)

(** log_store.hpp: HomeLogStore.  [s_recs]: m_records, by lsn; [None]: created and not
    completed; [Some (i, t)]: m_dev_key.idx and m_trunc_key.idx.  [s_trunc]: m_trunc_ld_key.idx. *)
Record store := Store { s_start : Z; s_next : Z; s_tail : Z; s_recs : list (Z * option (Z * Z)); s_trunc : Z }.
(** log_store.cpp:36-46, log_store.hpp:305 *)
Definition new_store (start : Z) : store := Store start start (start - 1) [] 0.

(** sisl::StreamTracker: at, create / update, truncate, rollback. *)
Fixpoint rec_get (lsn : Z) (l : list (Z * option (Z * Z))) : option (option (Z * Z)) :=
  match l with [] => None | (k, v) :: r => if k =? lsn then Some v else rec_get lsn r end.
Fixpoint rec_set (lsn : Z) (v : option (Z * Z)) (l : list (Z * option (Z * Z))) : list (Z * option (Z * Z)) :=
  match l with
  | [] => [(lsn, v)]
  | (k, v') :: r => if k =? lsn then (k, v) :: r else (k, v') :: rec_set lsn v r
  end.
Definition rec_after (lsn : Z) (l : list (Z * option (Z * Z))) := filter (fun r => lsn <? fst r) l.
Definition rec_upto (lsn : Z) (l : list (Z * option (Z * Z))) := filter (fun r => fst r <=? lsn) l.

(** Maps by store id. *)
Fixpoint find_id {A} (id : N) (l : list (N * A)) : option A :=
  match l with [] => None | (k, v) :: r => if (k =? id)%N then Some v else find_id id r end.
Definition set_id {A} (id : N) (v : A) (l : list (N * A)) : list (N * A) :=
  map (fun e => if (fst e =? id)%N then (fst e, v) else e) l.
Definition del_id {A} (id : N) (l : list (N * A)) : list (N * A) := filter (fun e => negb (fst e =? id)%N) l.

(** The journal and the two superblocks.  [d_groups]: first index and records of each group;
    [d_start]: key_idx, with the start offset; [d_sb]: first_seq_num of the reserved stores;
    [d_rb]: rollback records. *)
Record disk := Disk { d_groups : list (Z * list entry); d_start : Z; d_sb : list (N * Z); d_rb : list (N * (Z * Z)) }.
(** log_dev.hpp:777-795.  [w_pending]: the records of m_log_records not flushed yet, the first
    has index [w_flushed + 1]; [w_key]: m_last_flush_ld_key.idx. *)
Record world := World { w_disk : disk; w_flushed : Z; w_key : Z; w_lasttr : Z; w_pending : list entry;
                        w_stores : list (N * store); w_garbage : list (Z * N) }.
Definition w_idx (w : world) : Z := w_flushed w + 1 + Z.of_nat (length (w_pending w)).

Definition with_store (w : world) (id : N) (s : store) : world :=
  World (w_disk w) (w_flushed w) (w_key w) (w_lasttr w) (w_pending w) (set_id id s (w_stores w)) (w_garbage w).

(** A formatted log device: log_dev.cpp:69-73, :872-888. *)
Definition fresh : world := World (Disk [] 0 [] []) (-1) 0 (-1) [] [] [].

(** log_store.cpp:85-93 append_async, :48-67 write_async, log_dev.cpp:289-301. *)
Definition append (w : world) (id : N) (d : data) : option (world * Z) :=
  match find_id id (w_stores w) with
  | None => None
  | Some s =>
    let lsn := s_next s in
    let s' := Store (s_start s) (lsn + 1) (s_tail s) (rec_set lsn None (s_recs s)) (s_trunc s) in
    Some (World (w_disk w) (w_flushed w) (w_key w) (w_lasttr w) (w_pending w ++ [(id, lsn, d)]) (set_id id s' (w_stores w)) (w_garbage w), lsn)
  end.
(** log_store.cpp:69-83: the caller chooses the lsn. *)
Definition write_at (w : world) (id : N) (lsn : Z) (d : data) : option world :=
  match find_id id (w_stores w) with
  | None => None
  | Some s =>
    let s' := Store (s_start s) (s_next s) (s_tail s) (rec_set lsn None (s_recs s)) (s_trunc s) in
    Some (World (w_disk w) (w_flushed w) (w_key w) (w_lasttr w) (w_pending w ++ [(id, lsn, d)]) (set_id id s' (w_stores w)) (w_garbage w))
  end.

(** log_store.cpp:148-186 on_write_completion, and :192-203 of on_log_found. *)
Definition complete (s : store) (lsn idx fkey : Z) : option store :=
  let fin tail trunc := Store (s_start s) (Z.max (s_next s) (lsn + 1)) tail (rec_set lsn (Some (idx, trunc)) (s_recs s)) (s_trunc s) in
  if s_tail s <? lsn then Some (fin lsn fkey)
  else match rec_get (s_tail s) (s_recs s) with
       | Some (Some (_, t)) => Some (fin (s_tail s) t)
       | _ => None
       end.

(** log_dev.cpp:552-584, loop over the records of a group. *)
Fixpoint complete_all (fkey idx : Z) (l : list entry) (ss : list (N * store)) : option (list (N * store)) :=
  match l with
  | [] => Some ss
  | (id, lsn, _) :: r =>
    match find_id id ss with
    | None => None
    | Some s => match complete s lsn idx fkey with
                | None => None
                | Some s' => complete_all fkey (idx + 1) r (set_id id s' ss)
                end
    end
  end.

(** log_dev.cpp:481-614, one turn of the loop of flush: a group with the first [k] pending
    records is written and completed. *)
Definition flush_group (w : world) (k : nat) : option world :=
  let batch := firstn k (w_pending w) in
  let from := w_flushed w + 1 in
  match complete_all from from batch (w_stores w) with
  | None => None
  | Some ss =>
    let dk := w_disk w in
    Some (World (Disk (d_groups dk ++ [(from, batch)]) (d_start dk) (d_sb dk) (d_rb dk))
                (w_flushed w + Z.of_nat (length batch)) from (w_lasttr w) (skipn k (w_pending w)) ss (w_garbage w))
  end.
(** log_dev.cpp:481-541, flush; log_group.cpp:54: at most [batch_size] records a group. *)
Definition batch_size : nat := 202.
Fixpoint flush_loop (fuel : nat) (w : world) : option world :=
  match w_pending w with
  | [] => Some w
  | _ => match fuel with
         | O => None
         | S f => match flush_group w (Nat.min batch_size (length (w_pending w))) with
                  | None => None
                  | Some w' => flush_loop f w'
                  end
         end
  end.
Definition flush (w : world) : option world := flush_loop (length (w_pending w)) w.

(** log_store.cpp:208-255, truncate without the call to the log device; the bool is its
    result. *)
Definition truncate_mem (w : world) (id : N) (upto : Z) : option (world * bool) :=
  match find_id id (w_stores w) with
  | None => None
  | Some s0 =>
    if upto <? s_start s0 then Some (w, false)
    else
      match flush w with
      | None => None
      | Some w1 =>
        match find_id id (w_stores w1) with
        | None => None
        | Some s =>
          if s_tail s <? upto then
            let recs := rec_set upto (Some (-1, -1)) (s_recs s) in
            Some (with_store w1 id (Store (upto + 1) (Z.max (s_next s) (upto + 1)) upto (rec_after upto recs) (s_trunc s)), true)
          else
            match rec_get upto (s_recs s) with
            | Some (Some (_, t)) => Some (with_store w1 id (Store (upto + 1) (s_next s) (s_tail s) (rec_after upto (s_recs s)) t), true)
            | _ => None
            end
        end
      end
  end.

(** log_store.cpp:261-269, truncate_info; [None] is out_of_bound_ld_key. *)
Definition trunc_key (s : store) : option Z := if s_start s - 1 =? s_tail s then None else Some (s_trunc s).
Fixpoint min_key (ss : list (N * store)) : option Z :=
  match ss with
  | [] => None
  | (_, s) :: r => match trunc_key s, min_key r with
                   | None, m => m
                   | Some a, None => Some a
                   | Some a, Some b => Some (Z.min a b)
                   end
  end.
(** log_dev.cpp:631-646: where the log is cut, if it is. *)
Definition cut_point (w : world) : option Z :=
  let t := match min_key (w_stores w) with Some t => t | None => w_key w end in
  if (t <=? 0) || (t <=? w_lasttr w) then None else Some t.

(** log_dev.cpp:637: every open store's first lsn goes to the superblock. *)
Definition save_starts (ss : list (N * store)) (sb : list (N * Z)) : list (N * Z) :=
  map (fun e => match find_id (fst e) ss with Some s => (fst e, s_start s) | None => e end) sb.
Definition mem_id (id : N) (l : list N) : bool := existsb (N.eqb id) l.
(** log_dev.cpp:616-691, truncate. *)
Definition truncate (w : world) : world :=
  let dk := w_disk w in
  let sb := save_starts (w_stores w) (d_sb dk) in
  match cut_point w with
  | None => World (Disk (d_groups dk) (d_start dk) sb (d_rb dk)) (w_flushed w) (w_key w) (w_lasttr w) (w_pending w) (w_stores w) (w_garbage w)
  | Some t =>
    let free := map snd (filter (fun g => fst g <=? t) (w_garbage w)) in
    World (Disk (filter (fun g => t <=? fst g) (d_groups dk)) t
                (filter (fun e => negb (mem_id (fst e) free)) sb)
                (filter (fun r => t <? snd (snd r)) (filter (fun r => negb (mem_id (fst r) free)) (d_rb dk))))
          (w_flushed w) (w_key w) t (w_pending w) (w_stores w) (filter (fun g => t <? fst g) (w_garbage w))
  end.

(** log_store.cpp:358-411, rollback; the bool is its result.  The loop that flushes and tries
    again is entered once: nothing is pending after a flush. *)
Definition rollback (w : world) (id : N) (to : Z) : option (world * bool) :=
  match find_id id (w_stores w) with
  | None => None
  | Some s0 =>
    if to =? s_tail s0 then Some (w, true)
    else if (s_tail s0 <? to) || (to <? s_start s0 - 1) then Some (w, false)
    else
      match (if s_tail s0 + 1 <? s_next s0 then flush w else Some w) with
      | None => None
      | Some w1 =>
        match find_id id (w_stores w1) with
        | None => None
        | Some s =>
          if s_tail s + 1 <? s_next s then None
          else
            match rec_get (to + 1) (s_recs s), rec_get (s_tail s) (s_recs s) with
            | Some (Some (a, _)), Some (Some (b, _)) =>
              let dk := w_disk w1 in
              let s' := Store (s_start s) (to + 1) to (rec_upto to (s_recs s)) (s_trunc s) in
              Some (World (Disk (d_groups dk) (d_start dk) (d_sb dk) (d_rb dk ++ [(id, (a, b))])) (w_flushed w1) (w_key w1) (w_lasttr w1)
                          (w_pending w1) (set_id id s' (w_stores w1)) (w_garbage w1), true)
            | _, _ => None
            end
        end
      end
  end.

(** log_dev.cpp:726-742 create_new_log_store, :942-955 reserve_store; the id is the one the
    id reserver picked. *)
Definition create_store (w : world) (id : N) : world :=
  let dk := w_disk w in
  World (Disk (d_groups dk) (d_start dk) (d_sb dk ++ [(id, 0)]) (d_rb dk)) (w_flushed w) (w_key w) (w_lasttr w) (w_pending w)
        (w_stores w ++ [(id, new_store 0)]) (w_garbage w).
(** log_dev.cpp:763-779 remove_log_store, :378-385 unreserve_store_id. *)
Definition remove_store (w : world) (id : N) : world :=
  World (w_disk w) (w_flushed w) (w_key w) (w_lasttr w) (w_pending w) (del_id id (w_stores w)) (w_garbage w ++ [(w_idx w - 1, id)]).

(** log_dev.cpp:1093-1100 *)
Definition is_rolled_back (rb : list (N * (Z * Z))) (id : N) (idx : Z) : bool :=
  existsb (fun r => (fst r =? id)%N && (fst (snd r) <=? idx) && (idx <=? snd (snd r))) rb.

(** log_dev.cpp:241-261, the records of one group; :802-818 on_logfound; log_store.cpp:188-206.
    Result: the stores and the calls of the found callbacks, in order. *)
Fixpoint load_records (rb : list (N * (Z * Z))) (fkey idx : Z) (l : list entry) (ss : list (N * store)) : option (list (N * store) * list entry) :=
  match l with
  | [] => Some (ss, [])
  | (id, lsn, d) :: r =>
    let skip := load_records rb fkey (idx + 1) r ss in
    if is_rolled_back rb id idx then skip
    else match find_id id ss with
         | None => skip
         | Some s =>
           if lsn <? s_start s then skip
           else match complete s lsn idx fkey with
                | None => None
                | Some s' => match load_records rb fkey (idx + 1) r (set_id id s' ss) with
                             | None => None
                             | Some (ss', cb) => Some (ss', (id, lsn, d) :: cb)
                             end
                end
         end
  end.
(** log_dev.cpp:210-271, do_load: groups must follow each other; the result has the next index. *)
Fixpoint load_groups (rb : list (N * (Z * Z))) (idx : Z) (gs : list (Z * list entry)) (ss : list (N * store)) : option (list (N * store) * list entry * Z) :=
  match gs with
  | [] => Some (ss, [], idx)
  | (from, l) :: r =>
    if negb (from =? idx) || Nat.eqb (length l) 0 then None
    else match load_records rb from from l ss with
         | None => None
         | Some (ss1, cb1) => match load_groups rb (from + Z.of_nat (length l)) r ss1 with
                              | None => None
                              | Some (ss2, cb2, idx') => Some (ss2, cb1 ++ cb2, idx')
                              end
         end
  end.
(** log_dev.cpp:53-110, start on an existing device, with the stores the user opens;
    :703-724 handle_unopened_log_stores. *)
Definition restart (dk : disk) (opened : list N) : option (world * list entry) :=
  let open_one id := match find_id id (d_sb dk) with Some start => [(id, new_store start)] | None => [] end in
  let ss := flat_map open_one opened in
  match load_groups (d_rb dk) (d_start dk) (d_groups dk) ss with
  | None => None
  | Some (ss', cb, idx) =>
    let lost := filter (fun id => negb (mem_id id opened)) (map fst (d_sb dk)) in
    Some (World dk (idx - 1) 0 (match d_groups dk with [] => -1 | (from, _) :: _ => from end) [] ss' (map (fun id => (idx - 1, id)) lost), cb)
  end.

(** log_dev.cpp:303-332, a record by index. *)
Fixpoint numz {A} (i : Z) (l : list A) : list (Z * A) := match l with [] => [] | x :: r => (i, x) :: numz (i + 1) r end.
Definition records (gs : list (Z * list entry)) : list (Z * entry) := concat (map (fun g => numz (fst g) (snd g)) gs).
Definition dev_read (gs : list (Z * list entry)) (idx : Z) : option entry :=
  match find (fun r => fst r =? idx) (records gs) with Some (_, e) => Some e | None => None end.
(** log_store.cpp:116-146, read_sync. *)
Inductive answer := Refused | Value (d : data).
Definition read_sync (w : world) (id : N) (lsn : Z) : option (world * answer) :=
  match find_id id (w_stores w) with
  | None => None
  | Some s0 =>
    match rec_get lsn (s_recs s0) with
    | None => Some (w, Refused)
    | Some v =>
      match (match v with None => flush w | Some _ => Some w end) with
      | None => None
      | Some w1 =>
        match find_id id (w_stores w1) with
        | None => None
        | Some s =>
          match rec_get lsn (s_recs s) with
          | Some (Some (i, _)) => if i =? -1 then Some (w1, Refused)
                                  else match dev_read (d_groups (w_disk w1)) i with
                                       | Some (_, _, d) => Some (w1, Value d)
                                       | None => None
                                       end
          | _ => None
          end
        end
      end
    end
  end.
