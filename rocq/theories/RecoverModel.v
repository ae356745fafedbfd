(** * Model of the whole index recovery: what it does to the nodes on disk.
    Sources, below [/repo/src]: [lib/index/wb_cache.cpp] 552-762 (recover);
    [include/homestore/index/index_table.hpp] 122-134 (sanity_check), 201-234 (repair_root_node),
    236-251 (delete_stale_children), 253-287 (repair_node), 416-512 (delete_stale_links);
    [include/homestore/btree/detail/btree_common.ipp] 251-413 (validate_node).
    The order of the repairs and which blocks are freed is RecovModel.v, the repair of one node
    RepairModel.v.  Reads do not fail; a block that holds no node is an outcome.  One table.  Without
    a fault containment service, as in repair_root_node's second branch. *)
From Coq Require Import ZArith List Bool Arith.
From Verif Require Import WbModel DagModel LeafCrashModel RecovModel RepairModel.
Import ListNotations.

Definition set_del (n : node) : node :=
  Nd (n_leaf n) (n_level n) (n_ents n) (n_edge n) (n_next n) true (n_mine n).
Definition unset_del (n : node) : node :=
  Nd (n_leaf n) (n_level n) (n_ents n) (n_edge n) (n_next n) false (n_mine n).

(** ** index_table.hpp 416-512 delete_stale_links.

    The entries are visited from the last to the first ([rl]: those still to visit, last first).  An
    entry whose child is deleted is given the child before it, and that entry is removed; [ov] is the
    key it then has.  The first entry is just removed.  [frees]: the blocks freed on the way. *)
Fixpoint stale_ents (d : disk) (rl : list (Z * nat)) (ov : option Z) (acc : list (Z * nat)) (frees : list nat)
  : res (list (Z * nat) * list nat) :=
  match rl with
  | [] => Ok (acc, frees)
  | (k0, c) :: r =>
      let k := match ov with Some x => x | None => k0 end in
      let* x := rd d c in
      if n_del x then match r with [] => Ok (acc, frees ++ [c]) | _ => stale_ents d r (Some k) acc (frees ++ [c]) end
      else stale_ents d r None ((k, c) :: acc) frees
  end.
(** The node and the blocks freed.  [pid]: the block of [p]. *)
Definition stale_links (d : disk) (pid : nat) (p : node) : res (node * list nat) :=
  let* r := stale_ents d (rev (n_ents p)) None [] [] in
  let '(es, frees) := r in
  let p1 := set_ents es p in
  let* e := (match n_edge p1 with
             | Some g => if has_edge p1 then
                           let* x := rd d g in
                           if n_del x then
                             match rev es with
                             | [] => Ok (set_edge None p1, frees ++ [g])
                             | (_, c) :: r' => Ok (set_edge (Some c) (set_ents (rev r') p1), frees ++ [g])
                             end
                           else Ok (p1, frees)
                         else Ok (p1, frees)
             | None => Ok (p1, frees)
             end) in
  let '(p2, frees2) := e in
  match frees2 with
  | [] => Ok (p, [])
  | _ => if is_nil (n_ents p2) && negb (has_edge p2) then Ok (set_mine (set_del p2), frees2 ++ [pid])
         else Ok (set_mine p2, frees2)
  end.

(** ** btree_common.ipp 251-413 validate_node.  The default key is 0. *)
Definition first_key (n : node) : Z := match n_ents n with (k, _) :: _ => k | [] => 0%Z end.
Fixpoint ordered (l : list (Z * nat)) : bool :=
  match l with
  | (k1, _) :: ((k2, _) :: _) as r => Z.ltb k1 k2 && ordered r
  | _ => true
  end.
(** 251-311.  [key]: the key of the entry, none for the edge; [prev]: the child before, and its key in
    the parent. *)
Fixpoint kids_ok (d : disk) (n : node) (l : list (option Z * nat)) (prev : option (node * Z)) : bool :=
  match l with
  | [] => true
  | (key, c) :: r =>
      match d c with
      | None => false
      | Some ch =>
          negb (n_del ch) && Nat.eqb (S (n_level ch)) (n_level n) &&
          (if negb (is_nil (n_ents ch))
           then match key with Some k => Z.leb (first_key ch) k && Z.leb (last_key ch) k | None => true end
           else n_leaf ch || has_edge ch) &&
          match prev with
          | None => true
          | Some (pn, pk) =>
              match n_next pn with Some x => Nat.eqb x c | None => false end &&
              (is_nil (n_ents ch) ||
               (is_nil (n_ents pn) || Z.ltb (last_key pn) (first_key ch)) && Z.ltb pk (first_key ch))
          end &&
          kids_ok d n r (Some (ch, match key with Some k => k | None => 0%Z end))
      end
  end.
Definition kids (n : node) : list (option Z * nat) :=
  map (fun e => (Some (fst e), snd e)) (n_ents n) ++
  (if has_edge n then match n_edge n with Some e => [(None, e)] | None => [] end else []).
Definition has_next (n : node) : bool := match n_next n with Some _ => true | None => false end.
(** 312-330. *)
Definition last_kid_ok (n ch : node) : bool :=
  if has_edge n then if n_leaf ch then negb (has_next ch) else has_edge ch
  else if n_leaf ch then has_next ch else negb (has_edge ch).
(** 333-369. *)
Definition neighbor_ok (n nb : node) (ch : option node) : bool :=
  match ch with
  | Some c => if is_nil (n_ents nb) && negb (has_edge nb) then negb (has_next c) else has_next c
  | None => true
  end &&
  negb (n_del nb) && Nat.eqb (n_level nb) (n_level n) &&
  (is_nil (n_ents nb) || Z.leb (last_key n) (first_key nb)) &&
  (n_leaf n ||
   ((has_edge nb || negb (is_nil (n_ents nb))) &&
    match ch, (match n_ents nb with (_, f) :: _ => Some f | [] => n_edge nb end) with
    | Some c, Some f => match n_next c with Some x => Nat.eqb x f | None => false end
    | _, _ => false
    end)).
(** 371-413. *)
Definition validate (d : disk) (i : nat) : bool :=
  match d i with
  | None => false
  | Some n =>
      n_del n ||
      ((n_leaf n || negb (is_nil (n_ents n)) || has_edge n) && ordered (n_ents n) &&
       (n_leaf n || kids_ok d n (kids n) None) &&
       let ch := if n_leaf n then None else match rev (kids n) with (_, c) :: _ => d c | [] => None end in
       match ch with Some c => last_kid_ok n c | None => true end &&
       negb (has_next n && has_edge n) && (n_leaf n || has_next n || has_edge n) &&
       match n_next n with
       | None => true
       | Some s => negb (Nat.eqb s i) && match d s with Some nb => neighbor_ok n nb ch | None => false end
       end)
  end.

(** ** The recovery.

    [t_disk]: the nodes on disk; [t_buf]: the nodes as loaded in the first pass; [t_sb]: the root in
    the table's superblock (in memory; written with the next CP); [t_root]: the root the table works
    with; [t_ids]: the blocks alloc_node can give; [t_frees]: the blocks given to free_blk. *)
Record tst := Tst { t_disk : disk; t_buf : disk; t_sb : nat; t_root : nat; t_ids : list nat; t_frees : list nat }.
Inductive out3 (A : Type) := Good (a : A) | Bad | Abort.
Arguments Good {A} a.
Arguments Bad {A}.
Arguments Abort {A}.

Section Recover.
Variable fuel cap : nat.
Variable ismeta : nat -> bool.
Variable d : dag.
Variable landed : nat -> bool.
Variable q : rst.
Definition is_fate (f : fate) (b : nat) : bool :=
  match f, decide d landed b with Deleted, Deleted => true | Dropped, Dropped => true | Restored, Restored => true | _, _ => false end.

(** wb_cache.cpp 613-634: the nodes whose merge is on disk are marked deleted; the mark is taken off
    those that are taken back, in memory. *)
Definition mark1 (s : tst) (b : nat) : tst :=
  match t_buf s b with
  | Some n =>
      if is_fate Deleted b
      then Tst (dput (t_disk s) b (set_del n)) (dput (t_buf s) b (set_del n)) (t_sb s) (t_root s) (t_ids s) (t_frees s)
      else if is_fate Restored b
      then Tst (t_disk s) (dput (t_buf s) b (unset_del n)) (t_sb s) (t_root s) (t_ids s) (t_frees s)
      else s
  | None => s
  end.
Definition mark (s : tst) (order : list nat) : tst := fold_left mark1 order s.

(** index_table.hpp 253-287 repair_node; [m_up_buffer] no longer changes in the second pass. *)
Definition repair_node (s : tst) (b : nat) : res tst :=
  if ismeta b then Ok s
  else
    let* p := rd (t_buf s) b in
    let* s1 := (if n_leaf p then Ok s
                else
                  let* o := repair_links fuel cap (t_disk s) (t_sb s) (t_ids s) b p in
                  Ok (Tst (o_disk o) (if o_ok o then dput (t_buf s) b (match o_disk o b with Some n => n | None => p end) else t_buf s)
                          (o_root o) (if Nat.eqb (o_root o) (t_sb s) then t_root s else o_root o) (o_ids o) (t_frees s))) in
    Ok (if match q_up q b with Some u => ismeta u | None => false end
        then Tst (t_disk s1) (t_buf s1) b (t_root s1) (t_ids s1) (t_frees s1) else s1).
(** index_table.hpp 201-234 repair_root_node; the release assertion is [Abort]. *)
Definition repair_root (s : tst) (b : nat) : out3 tst :=
  if Nat.eqb (t_sb s) b then
    match t_buf s b with
    | None => Bad
    | Some n => if has_edge n then Abort
                else let n' := set_mine (set_edge (n_next n) (set_next None n)) in
                     Good (Tst (dput (t_disk s) b n') (dput (t_buf s) b n') (t_sb s) (t_root s) (t_ids s) (t_frees s))
    end
  else Good s.
Definition lift {A} (r : res A) : out3 A := match r with Ok a => Good a | _ => Bad end.
Definition event (s : tst) (e : revent) : out3 tst :=
  match e with
  | Repair b | Pruned b => lift (repair_node s b)
  | Fine _ => Good s
  | Root b => repair_root s b
  | Free b => Good (Tst (t_disk s) (t_buf s) (t_sb s) (t_root s) (t_ids s) (t_frees s ++ [b]))
  end.
Fixpoint events (s : tst) (l : list revent) : out3 tst :=
  match l with
  | [] => Good s
  | e :: r => match event s e with Good s1 => events s1 r | Bad => Bad | Abort => Abort end
  end.

(** wb_cache.cpp 690-712.  [rs]: the interior nodes taken back, lower levels first.  Those left
    without children come last in [deleted_bufs]. *)
Fixpoint stale_all (s : tst) (rs : list nat) (gone kept : list nat) : res (tst * list nat * list nat) :=
  match rs with
  | [] => Ok (s, gone, kept)
  | b :: r =>
      let* p := rd (t_buf s) b in
      let* x := stale_links (t_disk s) b p in
      let '(p', frees) := x in
      let s1 := Tst (match frees with [] => t_disk s | _ => dput (t_disk s) b p' end) (dput (t_buf s) b p')
                    (t_sb s) (t_root s) (t_ids s) (t_frees s ++ frees) in
      if n_del p' then stale_all s1 r (gone ++ [b]) kept else stale_all s1 r gone (kept ++ [b])
  end.
Fixpoint repair_all (s : tst) (l : list nat) : res tst :=
  match l with [] => Ok s | b :: r => let* s1 := repair_node s b in repair_all s1 r end.
Fixpoint by_level (lv : nat) (m : disk) (l : list nat) : list nat :=
  match lv with
  | O => []
  | S v => by_level v m l ++ filter (fun b => match m b with Some n => Nat.eqb (n_level n) v && negb (Nat.eqb v 0) | None => false end) l
  end.

(** wb_cache.cpp 552-762.  [m]: the disk at the crash; [sb]: the root in the superblock on disk;
    [top]: a level above all. *)
Definition recover (m : disk) (sb : nat) (ids order : list nat) (top : nat) : out3 tst :=
  let s0 := mark (Tst m m sb sb ids []) order in
  match stale_all s0 (by_level top m (filter (is_fate Restored) order)) [] [] with
  | Ok (s1, gone, kept) =>
      match repair_all s1 kept with
      | Ok s2 =>
          match events s2 (q_log q ++ map Free gone) with
          | Good s3 =>
              (* 733-759 *)
              let checked := filter (fun b => negb (ismeta b) && negb (is_fate Deleted b) && negb (is_fate Dropped b) &&
                                              negb (existsb (Nat.eqb b) gone)) order in
              if is_nil (q_pend q) || forallb (validate (t_disk s3)) checked then Good s3 else Abort
          | r => r
          end
      | _ => Bad
      end
  | _ => Bad
  end.
End Recover.
