(** * Model of the metadata of a log device.
    Source: src/lib/logstore/log_dev.cpp:868-1122 (LogDevMetadata), log_dev.hpp:396-535,
    log_store.cpp:424-430 and log_store_internal.hpp:163-179 (logstore_superblk),
    include/homestore/superblk_handler.hpp:67-130.

    Two superblocks: one has a header, the number of stores and an array with a slot per store
    id; the other the records of rollbacks.  Buffers have a size in bytes and hold as many slots
    as fit.  A buffer that gets a new size is allocated anew and the bytes are copied; bytes that
    do not make a whole slot are junk.  Accesses outside a buffer and uses of a superblock that
    is not there are outcomes (None).  sisl::IDReserver hands out the lowest free id.  The
    multimap of rollbacks is a list in the order of insertion.  A write of a superblock is
    atomic (see MetaModel). *)
From Coq Require Import ZArith Arith List Bool.
Import ListNotations.

(** Bytes of the headers and of a slot or record, meta_blk_context_sz and align_size. *)
Record cfg := Cfg { hdr : nat; slot : nat; rhdr : nat; rslot : nat; ctx : nat; align : nat }.

(** meta_blk_service.cpp:1289 is_aligned_buf_needed, with the rounding its callers do. *)
Definition fit (c : cfg) (sz : nat) : nat := if ctx c <? sz then (sz + align c - 1) / align c * align c else sz.

Record sb := Sb { s_size : nat; s_num : nat; s_slots : list Z }.
Notation rec := (nat * (Z * Z))%type (only parsing).
Record rsb := Rsb { r_size : nat; r_num : nat; r_recs : list (nat * (Z * Z)) }.
(** log_dev.cpp:1028-1030 store_capacity *)
Definition capacity (c : cfg) (sz : nat) : nat := (sz - hdr c) / slot c.
Definition rcapacity (c : cfg) (sz : nat) : nat := (sz - rhdr c) / rslot c.
(** log_dev.hpp:522-524; :452-454, with sisl::round_up *)
Definition needed (c : cfg) (n : nat) : nat := hdr c + n * slot c.
Definition rneeded (c : cfg) (n : nat) : nat := rhdr c + (n + 7) / 8 * 8 * rslot c.

(** log_store.cpp:424-430 *)
Definition valid (v : Z) : bool := (0 <=? v)%Z.
Definition none : Z := (-1)%Z.

Record mem := Mem { m_sb : sb; m_rsb : rsb; m_ids : list nat; m_info : list nat; m_rb : list (nat * (Z * Z)); m_dirty : bool }.
Record disk := Disk { d_sb : option sb; d_rsb : option rsb }.

(** What is in a new buffer after the copy of the old slots. *)
Fixpoint copied {A} (fill junk : A) (old : list A) (n : nat) : list A :=
  match n, old with
  | O, _ => []
  | S m, x :: t => x :: copied fill junk t m
  | S m, [] => junk :: repeat fill m
  end.
Fixpoint set_nth {A} (l : list A) (i : nat) (v : A) : option (list A) :=
  match l, i with
  | [], _ => None
  | _ :: t, O => Some (v :: t)
  | x :: t, S j => match set_nth t j v with Some t' => Some (x :: t') | None => None end
  end.

(** The largest id plus one, 0 for none. *)
Definition upper (l : list nat) : nat := fold_right Nat.max 0 (map S l).
(** log_dev.cpp:1010-1026 resize_logdev_sb_if_needed; :1100-1115 resize_rollback_sb_if_needed *)
Definition resize_sb (c : cfg) (junk : Z) (m : mem) : sb :=
  let req := fit c (needed c (upper (m_info m))) in
  let b := m_sb m in
  if req =? s_size b then b
  else let sz := fit c req in Sb sz (s_num b) (copied none junk (s_slots b) (capacity c sz)).
Definition no_rec : nat * (Z * Z) := (0, (0, 0)%Z).
Definition resize_rsb (c : cfg) (rb : list (nat * (Z * Z))) (b : rsb) : rsb :=
  let req := fit c (rneeded c (length rb)) in
  if req =? r_size b then b
  else let sz := fit c req in Rsb sz (r_num b) (copied no_rec no_rec (r_recs b) (rcapacity c sz)).

(** log_dev.cpp:871-890 create.  The buffers, and what is on the device after each write. *)
Definition fresh (c : cfg) : mem :=
  let sz := fit c (needed c 0) in
  let rz := fit c (rneeded c 1) in
  Mem (Sb sz 0 (repeat none (capacity c sz))) (Rsb rz 0 (repeat no_rec (rcapacity c rz))) [] [] [] false.
Definition create_disk (c : cfg) (writes : nat) : disk :=
  Disk (if 1 <=? writes then Some (m_sb (fresh c)) else None) (if 2 <=? writes then Some (m_rsb (fresh c)) else None).
(** log_dev.cpp:1117-1120 destroy: what is left after each removal. *)
Definition destroy_disk (d : disk) (removals : nat) : disk :=
  Disk (if 2 <=? removals then None else d_sb d) (if 1 <=? removals then None else d_rsb d).

(** log_dev.cpp:908-940 load.  The scan has no bound. *)
Fixpoint scan (l : list Z) (idx n : nat) : option (list (nat * Z)) :=
  match n with
  | O => Some []
  | S k => match l with
           | [] => None
           | v :: t => if valid v then match scan t (S idx) k with Some r => Some ((idx, v) :: r) | None => None end
                       else scan t (S idx) n
           end
  end.
Definition load (d : disk) : option (mem * list (nat * Z)) :=
  match d_sb d with
  | None => None
  | Some b =>
    match scan (s_slots b) 0 (s_num b) with
    | None => None
    | Some l =>
      match d_rsb d with
      | None => None          (* m_rollback_sb->num_records of a superblock never loaded *)
      | Some r => if r_num r <=? length (r_recs r)
                  then Some (Mem b r (map fst l) (map fst l) (firstn (r_num r) (r_recs r)) false, l)
                  else None
      end
    end
  end.

(** sisl::IDReserver *)
Fixpoint lowest (ids : list nat) (from fuel : nat) : nat :=
  match fuel with
  | O => from
  | S f => if existsb (Nat.eqb from) ids then lowest ids (S from) f else from
  end.
Definition pick (ids : list nat) : nat := lowest ids 0 (length ids).

(** log_dev.cpp:942-955 reserve_store *)
Definition reserve (c : cfg) (junk : Z) (m : mem) : option (mem * nat) :=
  let id := pick (m_ids m) in
  let m1 := Mem (m_sb m) (m_rsb m) (id :: m_ids m) (id :: m_info m) (m_rb m) (m_dirty m) in
  let b := resize_sb c junk m1 in
  match set_nth (s_slots b) id 0%Z with
  | None => None
  | Some s => Some (Mem (Sb (s_size b) (S (s_num b)) s) (m_rsb m) (m_ids m1) (m_info m1) (m_rb m) (m_dirty m), id)
  end.

(** log_dev.hpp:461-465 remove_ith_record *)
Definition remove_ith (i : nat) (b : rsb) : rsb :=
  Rsb (r_size b) (r_num b - 1) (firstn i (r_recs b) ++ firstn (r_num b - i - 1) (skipn (i + 1) (r_recs b)) ++ skipn (r_num b - 1) (r_recs b)).
(** log_dev.cpp:1044-1052, :1072-1078: the loops over the records, last to first. *)
Fixpoint sweep (p : nat * (Z * Z) -> bool) (i : nat) (b : rsb) : rsb * nat :=
  match i with
  | O => (b, 0)
  | S j => if p (nth j (r_recs b) no_rec)
           then let '(b', n) := sweep p j (remove_ith j b) in (b', S n)
           else sweep p j b
  end.
(** log_dev.cpp:1042-1085 remove_rollback_record_upto, remove_all_rollback_records; the flag:
    whether the superblock is written *)
Definition drop_records (c : cfg) (p : nat * (Z * Z) -> bool) (persist : bool) (m : mem) (d : disk) : mem * disk :=
  let '(b, n) := sweep p (r_num (m_rsb m)) (m_rsb m) in
  if n =? 0 then (Mem (m_sb m) b (m_ids m) (m_info m) (m_rb m) (m_dirty m), d)
  else let rb := filter (fun r => negb (p r)) (m_rb m) in
       let b' := resize_rsb c rb b in
       (Mem (m_sb m) b' (m_ids m) (m_info m) rb (negb persist), if persist then Disk (d_sb d) (Some b') else d).
Definition upto (u : Z) (r : nat * (Z * Z)) : bool := (snd (snd r) <=? u)%Z.
Definition of_store (id : nat) (r : nat * (Z * Z)) : bool := fst r =? id.

(** log_dev.cpp:1032-1040 add_rollback_record *)
Definition add_record (c : cfg) (r : nat * (Z * Z)) (persist : bool) (m : mem) (d : disk) : option (mem * disk) :=
  let rb := m_rb m ++ [r] in
  let b := resize_rsb c rb (m_rsb m) in
  match set_nth (r_recs b) (r_num b) r with
  | None => None
  | Some l => let b' := Rsb (r_size b) (S (r_num b)) l in
              Some (Mem (m_sb m) b' (m_ids m) (m_info m) rb (negb persist), if persist then Disk (d_sb d) (Some b') else d)
  end.

Definition drop_id (id : nat) (l : list nat) : list nat := filter (fun x => negb (x =? id)) l.
(** log_dev.cpp:965-980 unreserve_store after the removal of the records *)
Definition unreserve_sb (c : cfg) (junk : Z) (id : nat) (m : mem) : option mem :=
  let m1 := Mem (m_sb m) (m_rsb m) (drop_id id (m_ids m)) (drop_id id (m_info m)) (m_rb m) (m_dirty m) in
  let b := resize_sb c junk m1 in
  match (if S id <? upper (m_info m1) then set_nth (s_slots b) id none else Some (s_slots b)) with
  | None => None
  | Some s => match s_num b with
              | O => None
              | S n => Some (Mem (Sb (s_size b) n s) (m_rsb m1) (m_ids m1) (m_info m1) (m_rb m1) (m_dirty m1))
              end
  end.
(** log_dev.cpp:982-993 update_store_superblk *)
Definition update (c : cfg) (junk : Z) (id : nat) (v : Z) (m : mem) : option mem :=
  let m1 := Mem (m_sb m) (m_rsb m) (m_ids m) (if existsb (Nat.eqb id) (m_info m) then m_info m else id :: m_info m) (m_rb m) (m_dirty m) in
  let b := resize_sb c junk m1 in
  match set_nth (s_slots b) id v with
  | None => None
  | Some s => Some (Mem (Sb (s_size b) (s_num b) s) (m_rsb m1) (m_ids m1) (m_info m1) (m_rb m1) (m_dirty m1))
  end.
Definition write_sb (m : mem) (d : disk) : disk := Disk (Some (m_sb m)) (d_rsb d).
(** log_dev.cpp:957-963 persist, the second half *)
Definition write_dirty (m : mem) (d : disk) : mem * disk :=
  if m_dirty m then (Mem (m_sb m) (m_rsb m) (m_ids m) (m_info m) (m_rb m) false, Disk (d_sb d) (Some (m_rsb m))) else (m, d).
(** log_dev.cpp:1091-1098 is_rolled_back *)
Definition rolled_back (id : nat) (logid : Z) (m : mem) : bool :=
  existsb (fun r => (fst r =? id) && ((fst (snd r) <=? logid)%Z && (logid <=? snd (snd r))%Z)) (m_rb m).

(** Calls, with what the new memory of a buffer happens to hold; [now]: persist_now. *)
Inductive ev :=
| Reserve (junk : Z) (now : bool)
| Unreserve (junk : Z) (id : nat) (now : bool)
| Update (junk : Z) (id : nat) (v : Z) (now : bool)
| AddRecord (id : nat) (a b : Z) (now : bool)
| DropUpto (u : Z) (now : bool)
| Persist
| Crash                     (* and restart *)
| CrashInUnreserve (id : nat)   (* with [now], between the two writes *)
| CrashInPersist.

Definition restart (d : disk) : option (mem * disk) :=
  match load d with Some (m, _) => Some (m, d) | None => None end.
Definition step (c : cfg) (s : mem * disk) (e : ev) : option (mem * disk) :=
  let '(m, d) := s in
  match e with
  | Reserve junk now => match reserve c junk m with Some (m', _) => Some (m', if now then write_sb m' d else d) | None => None end
  | Unreserve junk id now =>
      let '(m1, d1) := drop_records c (of_store id) now m d in
      match unreserve_sb c junk id m1 with Some m' => Some (m', if now then write_sb m' d1 else d1) | None => None end
  | Update junk id v now => match update c junk id v m with Some m' => Some (m', if now then write_sb m' d else d) | None => None end
  | AddRecord id a b now => add_record c (id, (a, b)) now m d
  | DropUpto u now => Some (drop_records c (upto u) now m d)
  | Persist => Some (write_dirty m (write_sb m d))
  | Crash => restart d
  | CrashInUnreserve id => restart (snd (drop_records c (of_store id) true m d))
  | CrashInPersist => restart (write_sb m d)
  end.
Fixpoint run (c : cfg) (s : mem * disk) (l : list ev) : option (mem * disk) :=
  match l with [] => Some s | e :: t => match step c s e with Some s' => run c s' t | None => None end end.
Definition start (c : cfg) : mem * disk := (fresh c, create_disk c 2).
