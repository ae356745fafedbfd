(** * Model of the walk of the index recovery over the rebuilt dependency links.
    Sources, below [/repo/src/lib/index]: [wb_cache.cpp] 532-550 (prune_up_buffers), 613-675 (first
    pass), 714-731 (second pass), 772-785 (update_up_buffer_counters), 787-811 (recover_buf), 813-826
    (was_node_committed); [index_service.cpp] 306-331 (down-buffer counters).
    The links walked over are those of DagModel.v.  What a repair does to the nodes is RepairModel.v;
    here it is an event.  Not modelled: parent_recover and the repair of interior nodes taken back
    (696-712), the final check (733-759).  One index table.  Reads do not fail. *)
From Coq Require Import ZArith List Bool Arith.
From Verif Require Import WbModel DagModel.
Import ListNotations.

(** [Repair]: repair_index_node from recover_buf.  [Fine]: the node is committed, nothing to do.
    [Root]: it is committed and below the meta buffer: update_root.  [Pruned]: repair_index_node
    for a buffer of [pruned_bufs_to_repair].  [Free]: free_blk at the end. *)
Inductive revent := Repair (b : nat) | Fine (b : nat) | Root (b : nat) | Pruned (b : nat) | Free (b : nat).

(** [m_wait_for_down_buffers] and [m_up_buffer] of the buffers; [pending_bufs], [deleted_bufs],
    [pruned_bufs_to_repair]; [q_kept]: the blocks given to commit_blk; [q_log]: what was done, in
    order. *)
Record rst := Rs { q_wait : nat -> Z; q_up : nat -> option nat; q_pend : list nat; q_del : list nat;
  q_pruned : list nat; q_kept : list nat; q_log : list revent }.
Definition dec (s : rst) (u : nat) : rst :=
  Rs (fun x => if Nat.eqb x u then q_wait s x - 1 else q_wait s x)%Z (q_up s) (q_pend s) (q_del s)
     (q_pruned s) (q_kept s) (q_log s).
Definition cut (s : rst) (b : nat) : rst :=
  Rs (q_wait s) (fun x => if Nat.eqb x b then None else q_up s x) (q_pend s) (q_del s) (q_pruned s) (q_kept s) (q_log s).
Definition add_pend (s : rst) (b : nat) : rst :=
  Rs (q_wait s) (q_up s) (q_pend s ++ [b]) (q_del s) (q_pruned s) (q_kept s) (q_log s).
Definition add_del (s : rst) (b : nat) : rst :=
  Rs (q_wait s) (q_up s) (q_pend s) (q_del s ++ [b]) (q_pruned s) (q_kept s) (q_log s).
Definition add_pruned (s : rst) (b : nat) : rst :=
  Rs (q_wait s) (q_up s) (q_pend s) (q_del s) (q_pruned s ++ [b]) (q_kept s) (q_log s).
Definition add_kept (s : rst) (b : nat) : rst :=
  Rs (q_wait s) (q_up s) (q_pend s) (q_del s) (q_pruned s) (q_kept s ++ [b]) (q_log s).
Definition add_log (s : rst) (e : revent) : rst :=
  Rs (q_wait s) (q_up s) (q_pend s) (q_del s) (q_pruned s) (q_kept s) (q_log s ++ [e]).

Section Walk.
Variable ismeta : nat -> bool.
Variable d : dag.
Variable landed : nat -> bool.
Notation isfreed b := (rb_freed (d_buf d b)).
Notation isnewb b := (rb_new (d_buf d b)).
Notation fuel := (length (d_ids d)).

(** wb_cache.cpp 813-826.  A node on disk carries the id of the crashed CP iff its write landed; the
    bytes of a meta buffer are never a valid node (btree_node.hpp 132-143).  [m_node_freed] is only
    reset on buffers that nothing waits for (line 633), so the flag found at the start is used. *)
Fixpoint was_committed (n : nat) (ups : nat -> option nat) (b : option nat) : bool :=
  match b with
  | None => false
  | Some x => if isfreed x then match n with O => false | S n' => was_committed n' ups (ups x) end
              else landed x && negb (ismeta x)
  end.

(** wb_cache.cpp 772-785.  [None]: the recursion does not end. *)
Fixpoint update_up (n : nat) (s : rst) (b : nat) : option rst :=
  if negb (Z.eqb (q_wait s b) 0) then Some s
  else match q_up s b with
       | None => Some s
       | Some g => match n with O => None | S n' => update_up n' (cut (dec s g) b) g end
       end.

(** wb_cache.cpp 532-550.  [None]: a null pointer is followed. *)
Definition prune (s : rst) (b : nat) : option rst :=
  match q_up s b with
  | None => None
  | Some u =>
    let g := q_up s u in
    if negb (Z.eqb (q_wait s u) 0) then Some s
    else match update_up fuel s u with
         | None => None
         | Some s1 =>
           let s2 := add_pruned s1 u in
           Some (match g with
                 | Some x => if negb (ismeta x) && Z.eqb (q_wait s2 x) 0 then add_pruned s2 x else s2
                 | None => s2
                 end)
         end
  end.

(** wb_cache.cpp 613-675, one buffer. *)
Definition first1 (s : rst) (b : nat) : option rst :=
  if isfreed b then
    if was_committed fuel (q_up s) (Some b) then
      match q_up s b with Some u => Some (add_pend (add_del s b) u) | None => None end
    else
      let s1 := if isnewb b then add_del s b else add_kept s b in
      match q_up s1 b with
      | Some u => match prune (dec s1 u) b with Some s2 => Some (cut s2 b) | None => None end
      | None => Some s1
      end
  else if isnewb b then
    if was_committed fuel (q_up s) (Some b) && was_committed fuel (q_up s) (q_up s b) then
      match q_up s b with Some u => Some (add_pend (add_kept s b) u) | None => None end
    else match q_up s b with Some u => prune (dec s u) b | None => None end
  else Some s.
Fixpoint first (s : rst) (order : list nat) : option rst :=
  match order with
  | [] => Some s
  | b :: l => match first1 s b with Some s1 => first s1 l | None => None end
  end.

(** wb_cache.cpp 787-811. *)
Fixpoint recover_buf (n : nat) (s : rst) (b : nat) : option rst :=
  let s1 := dec s b in
  if negb (Z.eqb (q_wait s1 b) 0) then Some s1
  else
    let e := if was_committed fuel (q_up s1) (Some b)
             then match q_up s1 b with Some u => if ismeta u then Root b else Fine b | None => Fine b end
             else Repair b in
    let s2 := add_log s1 e in
    match q_up s2 b with
    | None => Some s2
    | Some u => match n with O => None | S n' => recover_buf n' s2 u end
    end.
(** wb_cache.cpp 714-717. *)
Fixpoint pending (s : rst) (l : list nat) : option rst :=
  match l with
  | [] => Some s
  | b :: r => match recover_buf fuel s b with Some s1 => pending s1 r | None => None end
  end.

Definition start : rst := Rs (fun b => rb_wait (d_buf d b)) (fun b => rb_up (d_buf d b)) [] [] [] [] [].
(** wb_cache.cpp 613-731.  [order]: the map is walked in the order of block ids. *)
Definition walk (order : list nat) : option rst :=
  match first start order with
  | None => None
  | Some s1 =>
    match pending s1 (q_pend s1) with
    | None => None
    | Some s2 => Some (Rs (q_wait s2) (q_up s2) (q_pend s2) (q_del s2) (q_pruned s2) (q_kept s2)
                          (q_log s2 ++ map Pruned (q_pruned s2) ++ map Free (q_del s2)))
    end
  end.
End Walk.
