(** Model of the B-tree: point and range operations with node splits and
    merges.

    Sources, all under src/include/homestore/btree in /repo: btree.ipp (put,
    get, remove, query), detail/btree_mutate_impl.ipp, detail/btree_remove_impl.ipp,
    detail/btree_get_impl.ipp, detail/btree_query_impl.ipp, the node size rules
    of detail/simple_node.hpp and detail/varlen_node.hpp, btree_kv.hpp
    (BtreeTraversalState).

    One operation runs at a time: the lock coupling of the code is left out, and
    with it the "retry" status.  A child link is the child itself; node ids are
    kept because the sibling links (next_bnode) of the leaves are ids.  Ids are
    handed out by a counter.  Link versions, generations, the level field (it is
    the height) and the failures of node reads, writes and allocations are left
    out. *)
From Coq Require Import ZArith NArith List Bool.
From Verif Require Import Base BtNodeModel.
Import ListNotations.

(** ** Nodes *)

(** A node: id, id of the right sibling, entries, and in an interior node the
    edge child (BtreeNode::has_valid_edge, btree_node.hpp 569-572). *)
Inductive tree :=
| Leaf (id next : N) (es : list (Z * N))
| Inner (id next : N) (es : list (Z * tree)) (edge : option tree).

(** The end of a sibling chain, empty_bnodeid. *)
Definition no_id : N := (2 ^ 64 - 1)%N.

(** Why an operation does not return normally. *)
Inductive stop :=
| NoFuel       (* did not end within the given number of rounds *)
| SplitAssert  (* BT_NODE_REL_ASSERT_GT(res, 0), btree_mutate_impl.ipp 273 *)
| NodeFull     (* an entry is put into a node that has no room for it *)
| BadChild     (* use of a child link that does not exist *)
| Outside      (* read of a slot outside the node *)
| BadRange.    (* BT_NODE_LOG_ASSERT of the query and range put *)

Inductive res (A : Type) := Ok (a : A) | Stop (s : stop).
Arguments Ok {A} a.
Arguments Stop {A} s.

(** BtreeConfig, detail/btree_internal.hpp 240-292, and the sizes that the node
    format gives.
    - [c_data]: bytes of a node for entries;
    - [c_hdr]: bytes of the header of a variable-size node, counted as filled
      by split_node (0 for fixed size);
    - [c_lsz k v], [c_isz k]: bytes an entry takes in a leaf and in an interior
      node: constants for SimpleNode; key, value and record for VariableNode;
    - [c_need kind k v], [c_ineed]: bytes has_room_for_put asks for in a leaf
      and (with K::get_max_size()) in an interior node, simple_node.hpp 215-223,
      varlen_node.hpp 447-453;
    - [c_min], [c_ideal]: suggested_min_size(), ideal_fill_size();
    - [c_max_merge], [c_max_level]: m_max_merge_nodes, m_max_merge_level;
    - [c_merge], [c_rebal]: m_merge_turned_on, m_rebalance_turned_on;
    - [c_fixedk], [c_kmax]: K::is_fixed_size(), K::get_max_size();
    - [c_link]: BtreeLinkInfo::get_fixed_size();
    - [c_k0]: the default-constructed key K{}. *)
Record cfg := Cfg {
  c_data : N;
  c_hdr : N;
  c_lsz : Z -> N -> N;
  c_isz : Z -> N;
  c_need : pkind -> Z -> N -> N;
  c_ineed : N;
  c_min : N;
  c_ideal : N;
  c_max_merge : nat;
  c_max_level : nat;
  c_merge : bool;
  c_rebal : bool;
  c_fixedk : bool;
  c_kmax : N;
  c_link : N;
  c_k0 : Z
}.

Section Ops.
Variable c : cfg.
Local Open Scope N_scope.

Definition lsz (p : Z * N) : N := c_lsz c (fst p) (snd p).
Definition isz {A} (p : Z * A) : N := c_isz c (fst p).

(** Bytes taken by entries. *)
Fixpoint total {A} (sz : Z * A -> N) (es : list (Z * A)) : N :=
  match es with [] => 0 | p :: r => sz p + total sz r end.

(** occupied_size(), btree_node.hpp 544, varlen_node.hpp 74-76. *)
Definition occupied (t : tree) : N :=
  match t with
  | Leaf _ _ es => total lsz es
  | Inner _ _ es _ => total isz es
  end.

(** level(): the height. *)
Fixpoint level (t : tree) : nat :=
  match t with
  | Leaf _ _ _ => 0%nat
  | Inner _ _ es ed =>
      S (match ed with
         | Some e => level e
         | None => match es with (_, x) :: _ => level x | [] => 0%nat end
         end)
  end.

(** num_entries_by_size: the longest run from the front that fits in [room],
    simple_node.hpp 155-157, varlen_node.hpp 290-303. *)
Fixpoint fit {A} (sz : Z * A -> N) (es : list (Z * A)) (room : N) : nat :=
  match es with
  | [] => 0%nat
  | p :: r => if sz p <=? room then S (fit sz r (room - sz p)) else 0%nat
  end.

(** get_last_key, btree_node.hpp 300-304. *)
Definition last_key {A} (es : list (Z * A)) : Z :=
  last (map fst es) (c_k0 c).

(** get_nth_value of an interior node; index total_entries is the edge. *)
Definition child_at (es : list (Z * tree)) (ed : option tree) (i : nat)
  : option tree :=
  match nth_error es i with
  | Some (_, x) => Some x
  | None => if (i =? length es)%nat then ed else None
  end.

(** update(ind, val) of an interior node: the link of a slot or of the edge,
    simple_node.hpp 64-73 and 394-407. *)
Definition set_child (es : list (Z * tree)) (ed : option tree) (i : nat)
    (x : tree) : list (Z * tree) * option tree :=
  match nth_error es i with
  | Some (k, _) => (upd_at es i k x, ed)
  | None => (es, Some x)
  end.

(** ** Splits *)

(** move_out_to_right_by_size: how many entries go, from the end, within
    [size]; simple_node.hpp 151-153, varlen_node.hpp 253-288 (which never moves
    the first entry; for SimpleNode half of the entries is less than all). *)
Definition moved {A} (sz : Z * A -> N) (es : list (Z * A)) : nat :=
  Nat.min (fit sz (rev es) ((total sz es + c_hdr c) * 50 / 100))
    (length es - 1).

(** split_node, btree_mutate_impl.ipp 254-304, up to the parent: the two
    halves and the split key.  [nx] is the id of the new node. *)
Definition split_child (nx : N) (t : tree) : res (Z * tree * tree) :=
  match t with
  | Leaf id next es =>
      let m := moved lsz es in
      if (m =? 0)%nat then Stop SplitAssert
      else
        let l := firstn (length es - m) es in
        Ok (last_key l, Leaf id nx l, Leaf nx next (skipn (length es - m) es))
  | Inner id next es ed =>
      let m := moved isz es in
      if (m =? 0)%nat then Stop SplitAssert
      else
        let l := firstn (length es - m) es in
        Ok (last_key l, Inner id nx l None,
            Inner nx next (skipn (length es - m) es) ed)
  end.

(** split_node, btree_mutate_impl.ipp 254-304: first the slot gets the right
    half, then the left half is inserted before it. *)
Definition split_node (nx : N) (es : list (Z * tree)) (ed : option tree)
    (i : nat) (t : tree) : res (list (Z * tree) * option tree * N) :=
  match split_child nx t with
  | Stop s => Stop s
  | Ok (k, l, r) =>
      let '(es1, ed1) := set_child es ed i r in
      if total isz es1 + c_isz c k <=? c_data c
      then Ok (ins_at es1 i k l, ed1, nx + 1)
      else Stop NodeFull
  end.

(** is_split_needed, btree_mutate_impl.ipp 306-318. *)
Definition split_needed (kd : pkind) (k : Z) (v : N) (t : tree) : bool :=
  match t with
  | Leaf _ _ es => c_data c <? total lsz es + c_need c kd k v
  | Inner _ _ es _ => c_data c <? total isz es + c_ineed c
  end.

(** ** Put of one key *)

(** The leaf: variant put; [NodeFull] when the bytes after are more than the
    node has. *)
Definition put_in_leaf (id next : N) (es : list (Z * N)) (kd : pkind) (k : Z)
    (v : N) (f : pfilter) : res (tree * status * option N) :=
  let '(st, old, es') := leaf_put es kd k v f in
  if total lsz es' <=? c_data c then Ok (Leaf id next es', st, old)
  else if (match st with StSuccess => true | _ => false end) then Stop NodeFull
  else Ok (Leaf id next es', st, old).

(** do_put for one key, btree_mutate_impl.ipp 32-169.  Result: the node, the
    next id, status, old value. *)
Fixpoint do_put (fuel : nat) (nx : N) (t : tree) (kd : pkind) (k : Z) (v : N)
    (f : pfilter) : res (tree * N * status * option N) :=
  match fuel with
  | O => Stop NoFuel
  | S fuel' =>
      match t with
      | Leaf id next es =>
          match put_in_leaf id next es kd k v f with
          | Stop s => Stop s
          | Ok (t', st, old) => Ok (t', nx, st, old)
          end
      | Inner id next es ed =>
          let i := snd (bsearch_node es k) in
          match child_at es ed i with
          | None => Stop BadChild
          | Some x =>
              if split_needed kd k v x then
                match split_node nx es ed i x with
                | Stop s => Stop s
                | Ok (es', ed', nx') =>
                    do_put fuel' nx' (Inner id next es' ed') kd k v f
                end
              else
                match do_put fuel' nx x kd k v f with
                | Stop s => Stop s
                | Ok (x', nx', st, old) =>
                    let '(es', ed') := set_child es ed i x' in
                    Ok (Inner id next es' ed', nx', st, old)
                end
          end
      end
  end.

(** check_split_root, btree_mutate_impl.ipp 197-252. *)
Definition split_root (nx : N) (t : tree) : res (tree * N) :=
  match split_node (nx + 1) [] None 0 t with
  | Stop s => Stop s
  | Ok (es, ed, nx') => Ok (Inner nx no_id es ed, nx')
  end.

(** Btree::put for one key, btree.ipp 82-150. *)
Fixpoint put (fuel : nat) (nx : N) (t : tree) (kd : pkind) (k : Z) (v : N)
    (f : pfilter) : res (tree * N * status * option N) :=
  match fuel with
  | O => Stop NoFuel
  | S fuel' =>
      if split_needed kd k v t then
        match split_root nx t with
        | Stop s => Stop s
        | Ok (t', nx') => put fuel' nx' t' kd k v f
        end
      else do_put fuel' nx t kd k v f
  end.

(** ** Get of one key *)

(** do_get, btree_get_impl.ipp 20-63; [fuel] is more than the height. *)
Fixpoint do_get (fuel : nat) (t : tree) (k : Z) : res (option N) :=
  match fuel with
  | O => Stop NoFuel
  | S fuel' =>
      match t with
      | Leaf _ _ es => Ok (leaf_find es k)
      | Inner _ _ es ed =>
          match child_at es ed (snd (bsearch_node es k)) with
          | None => Stop BadChild
          | Some x => do_get fuel' x k
          end
      end
  end.

(** Btree::get, btree.ipp 152-174. *)
Definition get (t : tree) (k : Z) : res (option N) := do_get (S (level t)) t k.

(** ** Merges *)

(** copy_by_size / copy_by_entries: entries [start ..] of [src] appended to
    [dst] as long as they fit in [size] bytes and in the node; the edge goes
    along with the last entry.  simple_node.hpp 159-186, varlen_node.hpp
    305-358.  Result: the node and how many were copied. *)
Definition copy_size {A B} (sz : Z * A -> N) (dst : list (Z * A) * option B)
    (src : list (Z * A) * option B) (start : nat) (size : N)
  : (list (Z * A) * option B) * nat :=
  let n := fit sz (skipn start (fst src))
             (N.min size (c_data c - total sz (fst dst))) in
  ((fst dst ++ firstn n (skipn start (fst src)),
    match snd src with
    | Some e => if (start + n =? length (fst src))%nat then Some e else snd dst
    | None => snd dst
    end), n).

Definition copy_entries {A B} (sz : Z * A -> N) (dst : list (Z * A) * option B)
    (src : list (Z * A) * option B) (m : nat)
  : list (Z * A) * option B :=
  let n := Nat.min m (fit sz (fst src) (c_data c - total sz (fst dst))) in
  (fst dst ++ firstn n (fst src),
   match snd src with
   | Some e => if (n =? length (fst src))%nat then Some e else snd dst
   | None => snd dst
   end).

(** What the leftmost node can take within [avail] bytes: lines 372-429.  The
    result: numbers of entries taken from the old nodes it takes from, and the
    cursor (old nodes not yet finished, first entry not taken). *)
Fixpoint left_src {A B} (sz : Z * A -> N) (olds : list (list (Z * A) * option B))
    (avail : N) : list nat * (list (list (Z * A) * option B) * nat) :=
  match olds with
  | [] => ([], ([], 0%nat))
  | o :: r =>
      let n := fit sz (fst o) avail in
      if (n =? length (fst o))%nat then
        let '(l, cur) := left_src sz r (avail - total sz (fst o)) in (n :: l, cur)
      else ([n], (olds, n))
  end.

(** The copy loop, lines 431-476.  [rest] and [j] are the cursor, [rnews] the
    new nodes, last first, [avail] available_size (int32), [tsz] and [tent]
    total_size and total_entries.  A negative available_size is passed as a
    huge unsigned size. *)
Fixpoint copy_loop {A B} (sz : Z * A -> N) (fuel : nat) (num : N)
    (balanced : N) (rest : list (list (Z * A) * option B)) (j : nat)
    (rnews : list (list (Z * A) * option B)) (avail : Z) (tsz : N)
    (tent : N) : res (list (list (Z * A) * option B)) :=
  match rest with
  | [] => Ok rnews
  | o :: r =>
      match fuel with
      | O => Stop NoFuel
      | S fuel' =>
          let alloc := (avail =? 0)%Z && (0 <? tent) in
          let rnews1 := if alloc then ([], None) :: rnews else rnews in
          let avail1 := if alloc then Z.of_N balanced else avail in
          match rnews1 with
          | [] => Ok []
          | cur :: rn =>
              let size := Z.to_N (avail1 mod 2 ^ 32) in
              let '(cur', n) := copy_size sz cur o j size in
              let copied := total sz (fst cur') - total sz (fst cur) in
              let tsz' := tsz - copied in
              let tent' := tent - N.of_nat n in
              let free := c_data c - total sz (fst cur') in
              if (length (fst o) =? j + n)%nat then
                copy_loop sz fuel' num balanced r 0 (cur' :: rn)
                  (Z.of_N balanced - Z.of_N (total sz (fst cur'))) tsz' tent'
              else if (N.of_nat (length rnews1) =? num - 1) && (tsz' <? free)
              then copy_loop sz fuel' num balanced rest (j + n) (cur' :: rn)
                     (Z.of_N free) tsz' tent'
              else copy_loop sz fuel' num balanced rest (j + n) (cur' :: rn)
                     0 tsz' tent'
          end
      end
  end.

(** The part of merge_nodes that redistributes the entries,
    btree_remove_impl.ipp 296-500 and 527-534: the leftmost node and the old
    nodes to its right become the leftmost node and new nodes.  [None] is
    merge_not_required. *)
Definition redistribute {A B} (sz : Z * A -> N) (fuel : nat)
    (left : list (Z * A) * option B) (olds : list (list (Z * A) * option B))
  : res (option ((list (Z * A) * option B) * list (list (Z * A) * option B))) :=
  let occ0 := total sz (fst left) in
  let tsz := fold_left (fun a o => a + total sz (fst o)) olds occ0 in
  let num := if tsz =? 0 then 1 else (tsz - 1) / c_ideal c + 1 in
  if (N.of_nat (length olds) + 1 <=? num) && negb (c_rebal c) then Ok None
  else
    let balanced := if tsz =? 0 then 0 else (tsz - 1) / num + 1 in
    if balanced <? occ0 then Ok None
    else
      let avail := balanced - occ0 in
      let '(takes, (rest, j)) := left_src sz olds avail in
      let tent := fold_left (fun a o => a + N.of_nat (length (fst o))) olds 0
                  - N.of_nat (fold_left Nat.add takes 0%nat) in
      match copy_loop sz fuel num balanced rest j [] 0 (tsz - occ0 - avail) tent with
      | Stop s => Stop s
      | Ok rnews =>
          let news := rev rnews in
          if (length olds <? length news)%nat then Ok None
          else if (length news =? length olds)%nat &&
               match olds, news with
               | o :: _, w :: _ => total sz (fst o) =? total sz (fst w)
               | _, _ => true
               end
          then Ok None
          else
            Ok (Some (fold_left (fun d p => copy_entries sz d (fst p) (snd p))
                        (combine olds takes) left, news))
      end.

(** remove(ind_s, ind_e) of an interior node, simple_node.hpp 86-109. *)
Definition remove_range (es : list (Z * tree)) (ed : option tree)
    (s e : nat) : list (Z * tree) * option tree :=
  if (e =? length es)%nat then
    (firstn (s - 1) es, option_map snd (nth_error es (s - 1)))
  else (firstn s es ++ skipn (S e) es, ed).

(** update(ind, key, val) of an interior node, simple_node.hpp 75-84,
    varlen_node.hpp 121-160; when the longer key does not fit the release assert
    of insert (varlen_node.hpp 524-528) fails. *)
Definition update_at (es : list (Z * tree)) (ed : option tree) (i : nat)
    (k : Z) (x : tree) : res (list (Z * tree) * option tree) :=
  if (i =? length es)%nat then Ok (es, Some x)
  else
    let es' := upd_at es i k x in
    if (total isz es' <=? total isz es) || (total isz es' <=? c_data c)
    then Ok (es', ed) else Stop NodeFull.

(** The parent's space check for variable-size keys, btree_remove_impl.ipp
    503-524, with the operator precedence of the code; sizes are 64-bit. *)
Definition parent_room (es : list (Z * tree)) (end_idx nold nnew : nat) : bool :=
  let edge := if (length es =? end_idx)%nat then 1 else 0 in
  let excess := if N.of_nat nold =? N.of_nat nnew + edge then 0 else 1 in
  let updates := (N.of_nat nnew + 2 ^ 64 - 1) mod 2 ^ 64 in
  negb (c_data c - total isz es + excess * c_link c
        <? (updates * c_kmax c) mod 2 ^ 64).

(** The new nodes are entered into the parent from the last one backwards,
    lines 546-561.  [built]: the nodes in reverse order, with their last
    keys. *)
Fixpoint enter_news (es : list (Z * tree)) (ed : option tree) (i : nat)
    (rbuilt : list (Z * tree)) : res (list (Z * tree) * option tree) :=
  match rbuilt with
  | [] => Ok (es, ed)
  | (k, x) :: r =>
      match update_at es ed i k x with
      | Stop s => Stop s
      | Ok (es', ed') => enter_news es' ed' (i - 1) r
      end
  end.

(** The commit part of merge_nodes, lines 527-580: excess links go, then the
    new nodes, the leftmost node and the last key are entered.  [left] with its
    last key and whether it has entries; [built] the new nodes in order. *)
Definition enter_parent (es : list (Z * tree)) (ed : option tree)
    (start end_ nold : nat) (left : Z * tree) (lempty : bool)
    (built : list (Z * tree)) : res (list (Z * tree) * option tree) :=
  let plast := last_key es in
  let excess := (nold - length built)%nat in
  let '(es1, ed1) :=
    if (excess =? 0)%nat then (es, ed)
    else remove_range es ed (start + 1) (start + excess) in
  match enter_news es1 ed1 (end_ - excess) (rev built) with
  | Stop s => Stop s
  | Ok (es2, ed2) =>
      (* without entries only the next id of the leftmost node changes *)
      let first :=
        if lempty then Ok (set_child es2 ed2 start (snd left))
        else update_at es2 ed2 start (fst left) (snd left) in
      match first with
      | Stop s => Stop s
      | Ok (es3, ed3) =>
          match es3, ed3 with
          | _ :: _, None =>
              if (last_key es3 =? plast)%Z then Ok (es3, ed3)
              else
                update_at es3 ed3 (length es3 - 1) plast
                  (last (map snd built) (snd left))
          | _, _ => Ok (es3, ed3)
          end
      end
  end.

(** The children as entry lists: all leaves or all interior nodes. *)
Fixpoint as_leaves (ts : list tree) : option (list (list (Z * N) * option N)) :=
  match ts with
  | [] => Some []
  | Leaf _ _ es :: r => option_map (cons (es, None)) (as_leaves r)
  | Inner _ _ _ _ :: _ => None
  end.
Fixpoint as_inners (ts : list tree)
  : option (list (list (Z * tree) * option tree)) :=
  match ts with
  | [] => Some []
  | Inner _ _ es ed :: r => option_map (cons (es, ed)) (as_inners r)
  | Leaf _ _ _ :: _ => None
  end.
Definition next_of (t : tree) : N :=
  match t with Leaf _ n _ => n | Inner _ n _ _ => n end.
Definition id_of (t : tree) : N :=
  match t with Leaf i _ _ => i | Inner i _ _ _ => i end.

(** The new nodes with their ids and sibling links: node [i] gets id [nx + i];
    each points to the next, the last to [stop_next]. *)
Fixpoint build_leaves (nx : N) (stop_next : N)
    (news : list (list (Z * N) * option N)) : list (Z * tree) :=
  match news with
  | [] => []
  | (es, _) :: r =>
      (last_key es,
       Leaf nx (match r with [] => stop_next | _ => nx + 1 end) es)
      :: build_leaves (nx + 1) stop_next r
  end.
Fixpoint build_inners (nx : N) (stop_next : N)
    (news : list (list (Z * tree) * option tree)) : list (Z * tree) :=
  match news with
  | [] => []
  | (es, ed) :: r =>
      (last_key es,
       Inner nx (match r with [] => stop_next | _ => nx + 1 end) es ed)
      :: build_inners (nx + 1) stop_next r
  end.

(** The children [s .. e] of an interior node. *)
Fixpoint children (es : list (Z * tree)) (ed : option tree) (s : nat)
    (n : nat) : option (list tree) :=
  match n with
  | O => Some []
  | S n' =>
      match child_at es ed s, children es ed (S s) n' with
      | Some x, Some r => Some (x :: r)
      | _, _ => None
      end
  end.

(** merge_nodes, btree_remove_impl.ipp 242-643.  [None] is
    merge_not_required. *)
Definition merge_nodes (fuel : nat) (nx : N) (es : list (Z * tree))
    (ed : option tree) (start end_ : nat)
  : res (option (list (Z * tree) * option tree * N)) :=
  if negb (c_merge c) then Ok None
  else
    match child_at es ed start, children es ed (S start) (end_ - start) with
    | Some lt, Some ots =>
        let stop_next := next_of (last ots lt) in
        let nold := length ots in
        match lt with
        | Leaf lid _ les =>
            match as_leaves ots with
            | None => Stop BadChild
            | Some olds =>
                match redistribute lsz fuel (les, None) olds with
                | Stop s => Stop s
                | Ok None => Ok None
                | Ok (Some (l, news)) =>
                    if negb (c_fixedk c) &&
                       negb (parent_room es end_ nold (length news))
                    then Ok None
                    else
                      let built := build_leaves nx stop_next news in
                      let l' := Leaf lid (match news with [] => stop_next
                                          | _ => nx end) (fst l) in
                      match enter_parent es ed start end_ nold
                              (last_key (fst l), l')
                              (match fst l with [] => true | _ => false end)
                              built with
                      | Stop s => Stop s
                      | Ok (es', ed') =>
                          Ok (Some (es', ed', nx + N.of_nat (length news)))
                      end
                end
            end
        | Inner lid _ les led =>
            match as_inners ots with
            | None => Stop BadChild
            | Some olds =>
                match redistribute isz fuel (les, led) olds with
                | Stop s => Stop s
                | Ok None => Ok None
                | Ok (Some (l, news)) =>
                    if negb (c_fixedk c) &&
                       negb (parent_room es end_ nold (length news))
                    then Ok None
                    else
                      let built := build_inners nx stop_next news in
                      let l' := Inner lid (match news with [] => stop_next
                                           | _ => nx end) (fst l) (snd l) in
                      match enter_parent es ed start end_ nold
                              (last_key (fst l), l')
                              (match fst l with [] => true | _ => false end)
                              built with
                      | Stop s => Stop s
                      | Ok (es', ed') =>
                          Ok (Some (es', ed', nx + N.of_nat (length news)))
                      end
                end
            end
        end
    | _, _ => Stop BadChild
    end.

(** is_merge_needed, btree_node.hpp 545-551. *)
Definition merge_needed (t : tree) : bool :=
  (level t <=? c_max_level c)%nat && (occupied t <? c_min c).

(** The last child index of a merge that starts at [i], btree_remove_impl.ipp
    100-105. *)
Definition merge_end (es : list (Z * tree)) (ed : option tree) (i : nat) : nat :=
  let last := match ed with Some _ => length es | None => (length es - 1)%nat end in
  Nat.min last (i + c_max_merge c - 1).

(** ** Remove of one key *)

(** do_remove for one key, btree_remove_impl.ipp 20-176. *)
Fixpoint do_remove (fuel : nat) (nx : N) (t : tree) (k : Z)
  : res (tree * N * status * option N) :=
  match fuel with
  | O => Stop NoFuel
  | S fuel' =>
      match t with
      | Leaf id next es =>
          let '(found, old, es') := leaf_remove es k in
          Ok (Leaf id next es', nx, if found then StSuccess else StNotFound, old)
      | Inner id next es ed =>
          let i := snd (bsearch_node es k) in
          match child_at es ed i with
          | None => Stop BadChild
          | Some x =>
              let down :=
                match do_remove fuel' nx x k with
                | Stop s => Stop s
                | Ok (x', nx', st, old) =>
                    let '(es', ed') := set_child es ed i x' in
                    Ok (Inner id next es' ed', nx', st, old)
                end in
              if merge_needed x && (i <? merge_end es ed i)%nat then
                match merge_nodes fuel' nx es ed i (merge_end es ed i) with
                | Stop s => Stop s
                | Ok None => down
                | Ok (Some (es', ed', nx')) =>
                    do_remove fuel' nx' (Inner id next es' ed') k
                end
              else down
          end
      end
  end.

(** Btree::remove for one key with check_collapse_root, btree.ipp 176-235,
    btree_remove_impl.ipp 178-240.  With merges turned off the collapse does
    nothing and the loop starts again. *)
Fixpoint remove (fuel : nat) (nx : N) (t : tree) (k : Z)
  : res (tree * N * status * option N) :=
  match fuel with
  | O => Stop NoFuel
  | S fuel' =>
      match t with
      | Leaf _ _ [] => Ok (t, nx, StNotFound, None)
      | Inner _ _ [] (Some e) =>
          if c_merge c then remove fuel' nx e k else remove fuel' nx t k
      | Inner _ _ [] None => Stop BadChild
      | _ => do_remove fuel' nx t k
      end
  end.

End Ops.
