(** Model of the B-tree operations on a range of keys: remove, update and the
    "any" operations.

    Sources, all under src/include/homestore/btree in /repo: btree_kv.hpp
    (BtreeTraversalState), detail/btree_remove_impl.ipp, detail/btree_mutate_impl.ipp,
    detail/btree_get_impl.ipp, btree.ipp.  The simplifications are those of
    BtreeModel.v: one operation at a time. *)
From Coq Require Import ZArith NArith List Bool.
From Verif Require Import Base BtNodeModel BtreeModel.
Import ListNotations.

(** BtreeTraversalState, btree_kv.hpp 182-242: the working range and m_trimmed.
    m_exhausted is only read by a debug assert. *)
Record wstate := WS { ws_r : krange; ws_trim : bool }.

(** trim_working_range(end_key, true), 202-205. *)
Definition trim_to (w : wstate) (k : Z) : wstate :=
  let r := ws_r w in WS (KRange (r_start r) (r_sincl r) k true (r_opt r)) true.

(** shift_working_range(), 208-218; [inp] is the input range. *)
Definition shift (inp : krange) (w : wstate) : wstate :=
  let r := ws_r w in
  if ws_trim w
  then WS (KRange (r_end r) false (r_end inp) (r_eincl inp) (r_opt r)) false
  else w.

(** shift_working_range(start_key, true), 220-227. *)
Definition shift_to (inp : krange) (w : wstate) (k : Z) : wstate :=
  let r := ws_r w in
  if ws_trim w
  then WS (KRange k true (r_end inp) (r_eincl inp) (r_opt r)) false
  else WS (KRange k true (r_end r) (r_eincl r) (r_opt r)) false.

(** The subrange for child [i], btree_remove_impl.ipp 129-143 and
    btree_mutate_impl.ipp 112-128: trimmed to the key of the slot when the child
    is a leaf that is not the edge and the range goes on behind it. *)
Definition subrange (es : list (Z * tree)) (i : nat) (x : tree) (w : wstate) : wstate :=
  match x, nth_error es i with
  | Leaf _ _ _, Some (k, _) => if (k <? r_end (ws_r w))%Z then trim_to w k else w
  | _, _ => w
  end.

Definition has_edge (ed : option tree) : bool :=
  match ed with Some _ => true | None => false end.

(** Where the loop over the children of an interior node stands: [None] at the
    label retry, [Some (curr_idx, end_idx, ret)] at the head of the loop. *)
Notation mode := (option (nat * nat * status)).

Section Ops.
Variable c : cfg.
Variable inp : krange.

(** do_remove for a range, btree_remove_impl.ipp 20-176.  [any] is
    at_least_one_child_modified.  Result: node, next id, traversal state,
    status. *)
Fixpoint do_rremove (fuel : nat) (nx : N) (t : tree) (w : wstate) (f : rfilter)
    (m : mode) (any : bool) : res (tree * N * wstate * status) :=
  match fuel with
  | O => Stop NoFuel
  | S fuel' =>
      match t with
      | Leaf id next es =>
          let '(n, es') := multi_remove es (ws_r w) f in
          Ok (Leaf id next es', nx, shift inp w,
              if (n =? 0)%nat then StNotFound else StSuccess)
      | Inner id next es ed =>
          match m with
          | None =>
              match match_range false (has_edge ed) es (ws_r w) with
              | None => Ok (t, nx, w, if any then StSuccess else StNotFound)
              | Some (s, e) => do_rremove fuel' nx t w f (Some (s, e, StSuccess)) any
              end
          | Some (i, e, ret) =>
              if (e <? i)%nat then Ok (t, nx, w, if any then StSuccess else ret)
              else
                match child_at es ed i with
                | None => Stop BadChild
                | Some x =>
                    let down :=
                      match do_rremove fuel' nx x (subrange es i x w) f None false with
                      | Stop s => Stop s
                      | Ok (x', nx', w', st) =>
                          let '(es', ed') := set_child es ed i x' in
                          do_rremove fuel' nx' (Inner id next es' ed') w' f
                            (Some (S i, e, st))
                            (any || match st with StSuccess => true | _ => false end)
                      end in
                    if merge_needed c x && (i <? merge_end c es ed i)%nat then
                      match merge_nodes c fuel' nx es ed i (merge_end c es ed i) with
                      | Stop s => Stop s
                      | Ok None => down
                      | Ok (Some (es', ed', nx')) =>
                          do_rremove fuel' nx' (Inner id next es' ed') w f None any
                      end
                    else down
                end
          end
      end
  end.

(** Btree::remove for a range, btree.ipp 176-235. *)
Fixpoint rremove_from (fuel : nat) (nx : N) (t : tree) (f : rfilter)
  : res (tree * N * status) :=
  match fuel with
  | O => Stop NoFuel
  | S fuel' =>
      let go :=
        match do_rremove fuel' nx t (WS inp false) f None false with
        | Stop s => Stop s
        | Ok (t', nx', _, st) => Ok (t', nx', st)
        end in
      match t with
      | Leaf _ _ [] => Ok (t, nx, StNotFound)
      | Inner _ _ [] (Some e) =>
          if c_merge c then rremove_from fuel' nx e f
          else rremove_from fuel' nx t f
      | Inner _ _ [] None => Stop BadChild
      | _ => go
      end
  end.

(** has_room_for_put of multi_put's loop, variant_node.hpp 276. *)
Definition room_for (kd : pkind) (v : N) (es : list (Z * N)) (k : Z) : bool :=
  (total (lsz c) es + c_need c kd k v <=? c_data c)%N.

(** is_split_needed for a range put, btree_mutate_impl.ipp 306-318.  [need k]:
    the bytes has_room_for_put asks for, given the start key [k] of the working
    range (first_key_size, btree_kv.hpp 231-237). *)
Definition rsplit_needed (need : Z -> N) (w : wstate) (t : tree) : bool :=
  match t with
  | Leaf _ _ es => (c_data c <? total (lsz c) es + need (r_start (ws_r w)))%N
  | Inner _ _ es _ => (c_data c <? total (isz c) es + c_ineed c)%N
  end.

(** do_put for a range, btree_mutate_impl.ipp 32-195.  A leaf whose entries
    take more than the node has is [NodeFull] (the release assert of
    VariableNode::insert). *)
Fixpoint do_rput (fuel : nat) (nx : N) (t : tree) (need : Z -> N) (w : wstate)
    (kd : pkind) (v : N) (f : pfilter) (m : mode)
  : res (tree * N * wstate * status) :=
  match fuel with
  | O => Stop NoFuel
  | S fuel' =>
      match t with
      | Leaf id next es =>
          match multi_put (room_for kd v) es (ws_r w) kd v f with
          | None => Stop Outside
          | Some (st, last, es') =>
              if (c_data c <? total (lsz c) es')%N && (total (lsz c) es <? total (lsz c) es')%N
              then Stop NodeFull
              else
                Ok (Leaf id next es', nx,
                    match st, last with
                    | StMore, Some k => shift_to inp w k
                    | StSuccess, _ => shift inp w
                    | _, _ => w
                    end, st)
          end
      | Inner id next es ed =>
          match m with
          | None =>
              match match_range false (has_edge ed) es (ws_r w) with
              | None => Stop BadRange
              | Some (s, e) => do_rput fuel' nx t need w kd v f (Some (s, e, StSuccess))
              end
          | Some (i, e, ret) =>
              if (e <? i)%nat then Ok (t, nx, w, ret)
              else
                match child_at es ed i with
                | None => Stop BadChild
                | Some x =>
                    if rsplit_needed need w x then
                      match split_node c nx es ed i x with
                      | Stop s => Stop s
                      | Ok (es', ed', nx') =>
                          do_rput fuel' nx' (Inner id next es' ed') need w kd v f None
                      end
                    else
                      match do_rput fuel' nx x need (subrange es i x w) kd v f None with
                      | Stop s => Stop s
                      | Ok (x', nx', w', st) =>
                          let '(es', ed') := set_child es ed i x' in
                          match st with
                          | StSuccess =>
                              do_rput fuel' nx' (Inner id next es' ed') need w' kd v f
                                (Some (S i, e, st))
                          | _ => Ok (Inner id next es' ed', nx', w', st)
                          end
                      end
                end
          end
      end
  end.

(** Btree::put for a range, btree.ipp 82-150: starts again from the root on
    has_more. *)
Fixpoint rput_from (fuel : nat) (nx : N) (t : tree) (need : Z -> N) (w : wstate)
    (kd : pkind) (v : N) (f : pfilter) : res (tree * N * status) :=
  match fuel with
  | O => Stop NoFuel
  | S fuel' =>
      if rsplit_needed need w t then
        match split_root c nx t with
        | Stop s => Stop s
        | Ok (t', nx') => rput_from fuel' nx' t' need w kd v f
        end
      else
        match do_rput fuel' nx t need w kd v f None with
        | Stop s => Stop s
        | Ok (t', nx', w', StMore) => rput_from fuel' nx' t' need w' kd v f
        | Ok (t', nx', _, st) => Ok (t', nx', st)
        end
  end.

End Ops.

(** Range remove: the input range is also the first working range. *)
Definition rremove (c : cfg) (fuel : nat) (nx : N) (t : tree) (r : krange) (f : rfilter) :=
  rremove_from c r fuel nx t f.

(** Range put. *)
Definition rput (c : cfg) (fuel : nat) (nx : N) (t : tree) (need : Z -> N) (r : krange)
    (kd : pkind) (v : N) (f : pfilter) :=
  rput_from c r fuel nx t need (WS r false) kd v f.

(** ** Any *)

(** do_get for an "any" request, btree_get_impl.ipp 20-63: the descent follows
    the start key. *)
Fixpoint do_get_any (fuel : nat) (t : tree) (r : krange) : res (option (Z * N)) :=
  match fuel with
  | O => Stop NoFuel
  | S fuel' =>
      match t with
      | Leaf _ _ es =>
          match get_any es r with
          | AnyNone => Ok None
          | AnyEntry _ k v => Ok (Some (k, v))
          | AnyOutside => Stop Outside
          end
      | Inner _ _ es ed =>
          match child_at es ed (snd (bsearch_node es (r_start r))) with
          | None => Stop BadChild
          | Some x => do_get_any fuel' x r
          end
      end
  end.
Definition tget_any (t : tree) (r : krange) : res (option (Z * N)) :=
  do_get_any (S (level t)) t r.

(** do_remove for an "any" request, btree_remove_impl.ipp 20-176: the middle of
    the matching children is computed as (end - start) / 2, line 85. *)
Fixpoint do_remove_any (c : cfg) (fuel : nat) (nx : N) (t : tree) (r : krange)
  : res (tree * N * option (Z * N)) :=
  match fuel with
  | O => Stop NoFuel
  | S fuel' =>
      match t with
      | Leaf id next es =>
          match leaf_remove_any es r with
          | None => Stop Outside
          | Some (o, es') => Ok (Leaf id next es', nx, o)
          end
      | Inner id next es ed =>
          match match_range false (has_edge ed) es r with
          | None => Ok (t, nx, None)
          | Some (s, e) =>
              let i := ((e - s) / 2)%nat in
              match child_at es ed i with
              | None => Stop BadChild
              | Some x =>
                  let down :=
                    match do_remove_any c fuel' nx x r with
                    | Stop s => Stop s
                    | Ok (x', nx', o) =>
                        let '(es', ed') := set_child es ed i x' in
                        Ok (Inner id next es' ed', nx', o)
                    end in
                  if merge_needed c x && (i <? merge_end c es ed i)%nat then
                    match merge_nodes c fuel' nx es ed i (merge_end c es ed i) with
                    | Stop s => Stop s
                    | Ok None => down
                    | Ok (Some (es', ed', nx')) =>
                        do_remove_any c fuel' nx' (Inner id next es' ed') r
                    end
                  else down
              end
          end
      end
  end.

(** Btree::remove for an "any" request. *)
Fixpoint tremove_any (c : cfg) (fuel : nat) (nx : N) (t : tree) (r : krange)
  : res (tree * N * option (Z * N)) :=
  match fuel with
  | O => Stop NoFuel
  | S fuel' =>
      match t with
      | Leaf _ _ [] => Ok (t, nx, None)
      | Inner _ _ [] (Some e) =>
          if c_merge c then tremove_any c fuel' nx e r
          else tremove_any c fuel' nx t r
      | Inner _ _ [] None => Stop BadChild
      | _ => do_remove_any c fuel' nx t r
      end
  end.
