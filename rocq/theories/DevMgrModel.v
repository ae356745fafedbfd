(** * Model of the start of the device manager over the drives of one server.
    Source: src/lib/device/device_manager.cpp 67-334, 341-401, 505-718, 776-814,
    hs_super_blk.h 77-163, homestore.cpp 114-202, 204-274, 303-310.
    A drive is a number.  A superblock write is atomic; a start is the list of its writes and
    how it ends, and a crash lets a prefix of them reach the drives.  The writes of
    [create_chunks] and [do_remove_chunk] count as one each: the slot bitmap, written last,
    makes them visible (Pdev models them one by one).  How many chunks a virtual device gets
    on a drive is an argument ([num]; VdevSize models it), and so is the drive that has room
    for a new chunk.  The limits of 1024 virtual devices and 65536 chunks, versions, sizes,
    read failures and the mirror of the superblock in the footer are left out. *)
From Coq Require Import List Arith Lia Bool.
Import ListNotations.

(** hs_super_blk.h:77-106, [first_block_header]. *)
Record hdr := Hdr { gen : nat; npd : nat; cur : nat; uuid : nat }.
(** hs_super_blk.h:108-163, [first_block]: [formatting_done], header, and of
    [pdev_info_header] the id of the drive and the uuid of the system. *)
Record fblk := FBlk { done : bool; fh : hdr; pid : nat; puuid : nat }.
(** The superblock area of a drive: first block ([None]: no magic), slots of virtual devices
    in use, chunks (id, virtual device). *)
Record disk := Disk { fb : option fblk; vinf : list nat; chk : list (nat * nat) }.
Definition disks := nat -> disk.
Definition set (D : disks) (d : nat) (x : disk) : disks := fun e => if Nat.eqb e d then x else D e.

(** hs_super_blk.h:147-151, [first_block::is_valid]. *)
Definition valid (x : disk) : option fblk :=
  match fb x with Some b => if done b then Some b else None | None => None end.

Inductive wr :=
| WFormat (d : nat) (b : fblk) (* device_manager.cpp:124-158: the whole area and the empty slot bitmap *)
| WChunks (d v : nat) (ids : list nat) (* physical_dev.cpp:261-306, create_chunks *)
| WVinfo (d v : nat) (* device_manager.cpp:297, 392-395, 653, 694 *)
| WDrop (d c : nat) (* physical_dev.cpp:421-444, do_remove_chunk *)
| WCommit (d g c : nat). (* device_manager.cpp:311-334, read, set three fields, write *)
Definition apply (D : disks) (w : wr) : disks :=
  match w with
  | WFormat d b => set D d (Disk (Some b) [] [])
  | WChunks d v ids => set D d (Disk (fb (D d)) (vinf (D d)) (chk (D d) ++ map (fun c => (c, v)) ids))
  | WVinfo d v => set D d (Disk (fb (D d)) (v :: vinf (D d)) (chk (D d)))
  | WDrop d c => set D d (Disk (fb (D d)) (vinf (D d)) (filter (fun x => negb (Nat.eqb (fst x) c)) (chk (D d))))
  | WCommit d g c =>
    match fb (D d) with
    | None => D
    | Some b => set D d (Disk (Some (FBlk true (Hdr g (npd (fh b)) c (uuid (fh b))) (pid b) (puuid b))) (vinf (D d)) (chk (D d)))
    end
  end.
Definition applies (D : disks) (ws : list wr) : disks := fold_left apply ws D.

(** What is the same for all starts: which drives are fast ones; the virtual devices (asked for
    in [HomeStore::format_and_start], homestore.cpp:242-268), which of them are for fast drives,
    and which are dynamic or on a single drive (device_manager.cpp:258-260). *)
Record cfg := Cfg { typ : nat -> bool; nv : nat; vt : nat -> bool; dyn : nat -> bool }.

(** A chunk in memory: id, drive, virtual device. *)
Notation chunk := (nat * nat * nat)%type.
Definition cid (x : chunk) : nat := fst (fst x).
Definition cdv (x : chunk) : nat := snd (fst x).
Definition cvd (x : chunk) : nat := snd x.

(** device.h:132-141: [m_all_pdevs] (id, drive), the drives in the order of [m_pdevs_by_type],
    [m_vdevs], [m_chunks], [m_boot_in_degraded_mode]. *)
Record mem := Mem { all : list (nat * nat); devs : list nat; vds : list nat; cs : list chunk; degraded : bool }.

(** Ways a start ends early. *)
Inductive why :=
| NoDevs (* homestore.cpp:118-121, no drives given *)
| Twice  (* device_manager.cpp:121, 308, a drive given twice *)
| NoPool (* :349, 267-269, no drive for a virtual device *)
| Uuid   (* :214-217, a drive of another system *)
| Dangling. (* :228, the drive with the same id is destroyed, [m_pdevs_by_type] points to it *)
Inductive res := Up (m : mem) | Died (w : why).

Definition memb (x : nat) (l : list nat) : bool := existsb (Nat.eqb x) l.
Fixpoint nodupb (l : list nat) : bool := match l with [] => true | x :: r => negb (memb x r) && nodupb r end.

(** :810-814, [pdevs_by_type_internal]: the data drives if there is none of the type. *)
Definition of_type (c : cfg) (t : bool) (L : list nat) : list nat := filter (fun d => eqb (typ c d) t) L.
Definition pool (c : cfg) (t : bool) (L : list nat) : list nat :=
  match of_type c t L with [] => of_type c false L | p => p end.

(** [m_chunk_id_bm.get_next_reset_bit(0)]: the lowest id not in use. *)
Fixpoint lowest (ids : list nat) (from fuel : nat) : nat :=
  match fuel with
  | O => from
  | S f => if memb from ids then lowest ids (S from) f else from
  end.
Definition pick (ids : list nat) : nat := lowest ids 0 (length ids).
(** :555-560, the ids for [n] chunks. *)
Fixpoint alloc (used : list nat) (n : nat) : list nat :=
  match n with O => [] | S m => let c := pick used in c :: alloc (c :: used) m end.

(** :550-568, [add_pdev_to_vdev] for each of some drives: the drive and its new chunk ids.
    The drives come in the listed order (on a load the code walks a map ordered by pointer). *)
Fixpoint spread (num : nat -> nat -> nat) (v : nat) (ps : list nat) (used : list nat) : list (nat * list nat) :=
  match ps with
  | [] => []
  | d :: r => let ids := alloc used (num v d) in (d, ids) :: spread num v r (ids ++ used)
  end.
Definition triples (v : nat) (sp : list (nat * list nat)) : list chunk :=
  flat_map (fun p => map (fun c => (c, fst p, v)) (snd p)) sp.

(** :124-158 with populate_pdev_info :700-718: the header goes into the first block before the
    id is taken from it. *)
Fixpoint fmt (h : hdr) (l : list nat) : hdr * list (nat * nat) * list wr :=
  match l with
  | [] => (h, [], [])
  | d :: r =>
    let id := S (cur h) in
    let '(h', a, ws) := fmt (Hdr (gen h) (npd h) id (uuid h)) r in
    (h', (id, d) :: a, WFormat d (FBlk false h id (uuid h)) :: ws)
  end.

(** [m_all_pdevs] is walked by id. *)
Fixpoint ins (x : nat * nat) (l : list (nat * nat)) : list (nat * nat) :=
  match l with [] => [x] | y :: r => if fst x <=? fst y then x :: l else y :: ins x r end.
Definition sorted (l : list (nat * nat)) : list (nat * nat) := fold_right ins [] l.
(** :311-334, [commit_formatting]. *)
Definition commit (g c : nat) (a : list (nat * nat)) : list wr := map (fun p => WCommit (snd p) g c) (sorted a).
(** :160-189, [verify_unique_devs]: the ids on the drives differ. *)
Definition unique (D : disks) (a : list (nat * nat)) : bool :=
  nodupb (map (fun p => match fb (D (snd p)) with Some b => pid b | None => 0 end) a).

(** :341-401, [create_vdev] for one after the other; [None] in place of the chunks: it died. *)
Definition create_ws (v : nat) (ps : list nat) (sp : list (nat * list nat)) : list wr :=
  map (fun p => WChunks (fst p) v (snd p)) sp ++ map (fun d => WVinfo d v) ps.
Fixpoint create_vdevs (c : cfg) (num : nat -> nat -> nat) (L vs : list nat) (k : list chunk) : list wr * option (list chunk) :=
  match vs with
  | [] => ([], Some k)
  | v :: r =>
    match pool c (vt c v) L with
    | [] => ([], None)
    | ps =>
      let sp := spread num v ps (map cid k) in
      let '(ws, o) := create_vdevs c num L r (k ++ triples v sp) in
      (create_ws v ps sp ++ ws, o)
    end
  end.

(** homestore.cpp:204-274, 303-310: a first start; [format_devices] is
    device_manager.cpp:102-122. *)
Definition format (c : cfg) (D : disks) (dl : list nat) (u : nat) (num : nat -> nat -> nat) : list wr * res :=
  let '(h, a, ws1) := fmt (Hdr 1 (length dl) 0 u) dl in
  if negb (unique (applies D ws1) a) then (ws1, Died Twice)
  else
    match create_vdevs c num dl (seq 0 (nv c)) [] with
    | (ws2, None) => (ws1 ++ ws2, Died NoPool)
    | (ws2, Some k) => (ws1 ++ ws2 ++ commit (gen h) (cur h) a, Up (Mem (sorted a) dl (seq 0 (nv c)) k false))
    end.

(** :202-238: the valid drives one after the other, the header with the highest generation,
    whether the last one differed from it; [None]: uuid assert. *)
Fixpoint scan (D : disks) (dl : list nat) (h : hdr) (stale : bool) : option (hdr * bool * list nat * list nat) :=
  match dl with
  | [] => Some (h, stale, [], [])
  | d :: r =>
    match valid (D d) with
    | None => match scan D r h stale with Some (h', st, l, f) => Some (h', st, l, d :: f) | None => None end
    | Some b =>
      if Nat.eqb (puuid b) (uuid h) then
        match scan D r (if gen h <? gen (fh b) then fh b else h) (negb (Nat.eqb (gen (fh b)) (gen h))) with
        | Some (h', st, l, f) => Some (h', st, d :: l, f) | None => None end
      else None
    end
  end.

(** :573-580, 776-800: the virtual devices are read from the first drive of each type. *)
Fixpoint insv (x : nat) (l : list nat) : list nat :=
  match l with [] => [x] | y :: r => if x <? y then x :: l else if Nat.eqb x y then l else y :: insv x r end.
Definition infos (c : cfg) (D : disks) (L : list nat) (t : bool) : list nat :=
  match of_type c t L with [] => [] | d :: _ => vinf (D d) end.
Definition vdevs (c : cfg) (D : disks) (L : list nat) : list nat :=
  fold_right insv [] (infos c D L false ++ infos c D L true).
(** :583-604: the chunks of the virtual devices that were found. *)
Definition found (D : disks) (vs : list nat) (a : list (nat * nat)) : list chunk :=
  flat_map (fun p => map (fun x => (fst x, snd p, snd x)) (filter (fun x => memb (snd x) vs) (chk (D (snd p))))) a.

(** :251-302, 507-548: drives that have no chunk of a virtual device yet are added to it. *)
Definition mine (v : nat) (k : list chunk) : list nat :=
  nodup Nat.eq_dec (map cdv (filter (fun x => Nat.eqb (cvd x) v) k)).
Definition add_ws (v : nat) (sp : list (nat * list nat)) : list wr :=
  flat_map (fun p => [WChunks (fst p) v (snd p); WVinfo (fst p) v]) sp.
Fixpoint grow (c : cfg) (num : nat -> nat -> nat) (L vs : list nat) (k : list chunk) : list wr * option (list chunk) :=
  match vs with
  | [] => ([], Some k)
  | v :: r =>
    if dyn c v then grow c num L r k
    else
      match pool c (vt c v) L with
      | [] => ([], None)
      | ps =>
        if Nat.eqb (length (mine v k)) (length ps) then grow c num L r k
        else
          let sp := spread num v (filter (fun d => negb (memb d (mine v k))) ps) (map cid k) in
          let '(ws, o) := grow c num L r (k ++ triples v sp) in
          (add_ws v sp ++ ws, o)
      end
  end.

(** :191-309, [load_devices]; [h0] is the header the constructor took, :92-98. *)
Definition load (c : cfg) (D : disks) (dl : list nat) (h0 : hdr) (num : nat -> nat -> nat) : list wr * res :=
  match scan D dl h0 false with
  | None => ([], Died Uuid)
  | Some (h, stale, l, f) =>
    let '(h1, a1, ws1) := fmt h f in
    let D1 := applies D ws1 in
    let a := map (fun d => (match fb (D d) with Some b => pid b | None => 0 end, d)) l ++ a1 in
    if negb (nodupb (map fst a)) then (ws1, Died Dangling)
    else
      let L := l ++ f in
      let vs := vdevs c D1 L in
      let k := found D1 vs (sorted a) in
      let deg := negb (Nat.eqb (npd h0) (length dl)) in
      match f with
      | [] =>
        if stale then
          let ws := commit (gen h1) (cur h1) a in
          if unique (applies D ws) a then (ws, Up (Mem (sorted a) L vs k deg)) else (ws, Died Twice)
        else ([], Up (Mem (sorted a) L vs k deg))
      | _ =>
        match grow c num L vs k with
        | (ws2, None) => (ws1 ++ ws2, Died NoPool)
        | (ws2, Some k') =>
          let ws := ws1 ++ ws2 ++ commit (S (gen h1)) (cur h1) a in
          if unique (applies D ws) a then (ws, Up (Mem (sorted a) L vs k' deg)) else (ws, Died Twice)
        end
      end
  end.

(** :90-99, the constructor: the first drive with a valid first block decides. *)
Fixpoint first_valid (D : disks) (dl : list nat) : option fblk :=
  match dl with [] => None | d :: r => match valid (D d) with Some b => Some b | None => first_valid D r end end.
Definition start (c : cfg) (D : disks) (dl : list nat) (u : nat) (num : nat -> nat -> nat) : list wr * res :=
  match dl with
  | [] => ([], Died NoDevs)
  | _ =>
    match first_valid D dl with
    | None => format c D dl u num
    | Some b => load c D dl (fh b) num
    end
  end.

Record st := St { dk : disks; mm : option mem }.
Inductive ev :=
| Start (dl : list nat) (u : nat) (num : nat -> nat -> nat) (k : nat) (* [k] writes reach the drives *)
| NewChunk (v d : nat) (k : nat) (* :612-660, create_chunk *)
| DelChunk (x : nat) (k : nat). (* :662-698, remove_chunk *)
Definition cut (s : st) (ws : list wr) (k : nat) (m : option mem) : st :=
  St (applies (dk s) (firstn k ws)) (if k <? length ws then None else m).
Definition step (c : cfg) (s : st) (e : ev) : st :=
  match e with
  | Start dl u num k =>
    let '(ws, r) := start c (dk s) dl u num in
    cut s ws k (match r with Up m => Some m | Died _ => None end)
  | NewChunk v d k =>
    match mm s with
    | Some m =>
      if memb v (vds m) && memb d (pool c (vt c v) (devs m)) then
        let x := pick (map cid (cs m)) in
        cut s [WChunks d v [x]; WVinfo d v] k (Some (Mem (all m) (devs m) (vds m) (cs m ++ [(x, d, v)]) (degraded m)))
      else s
    | None => s
    end
  | DelChunk x k =>
    match mm s with
    | Some m =>
      match find (fun y => Nat.eqb (cid y) x) (cs m) with
      | Some (_, d, v) =>
        cut s [WDrop d x; WVinfo d v] k (Some (Mem (all m) (devs m) (vds m) (filter (fun y => negb (Nat.eqb (cid y) x)) (cs m)) (degraded m)))
      | None => s
      end
    | None => s
    end
  end.
