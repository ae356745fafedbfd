(** Model of the range queries of the B-tree.

    Sources under src/include/homestore/btree in /repo: btree.ipp 237-287
    (query), detail/btree_query_impl.ipp 21-152 (sweep and traversal),
    btree_kv.hpp 186-254 (the working range), btree_req.hpp 176-219.

    Not modelled: locks, failing reads, route tracing; the intrusive and the
    serializable query, which the code does not support. *)
From Coq Require Import ZArith NArith List Bool.
From Verif Require Import Base BtNodeModel BtreeModel BtreeInv.
Import ListNotations.

(** BtreeQueryType, btree_req.hpp 176-196, the supported ones. *)
Inductive qkind := QSweep | QTraverse.

Section Query.
Variable c : cfg.

(** The way down of do_sweep_query, lines 68-81: the leaf reached. *)
Fixpoint descend (fuel : nat) (t : tree) (k : Z) : res lrec :=
  match fuel with
  | O => Stop NoFuel
  | S fuel' =>
      match t with
      | Leaf id next es => Ok (id, next, es)
      | Inner _ _ es ed =>
          match child_at es ed (snd (bsearch_node es k)) with
          | None => Stop BadChild
          | Some x => descend fuel' x k
          end
      end
  end.

(** read_and_lock_node of a leaf by its id. *)
Definition read_leaf (ls : list lrec) (id : N) : option lrec :=
  find (fun l => (fst (fst l) =? id)%N) ls.

(** The loop of do_sweep_query over the leaves, lines 28-66.  [room] is
    batch_size() - count, [lim] the end key of the input range. *)
Fixpoint sweep (fuel : nat) (ls : list lrec) (cur : lrec) (w : krange)
    (lim : Z) (room : nat) (f : gfilter) : res (list (Z * N) * status) :=
  match fuel with
  | O => Stop NoFuel
  | S fuel' =>
      let '(_, next, es) := cur in
      let got := multi_get es w room f in
      if (length got <? room)%nat then
        if (lim <=? last_key c es)%Z then Ok (got, StSuccess)
        else if (next =? no_id)%N then Ok (got, StSuccess)
        else
          match read_leaf ls next with
          | None => Stop BadChild
          | Some l =>
              match sweep fuel' ls l w lim (room - length got) f with
              | Stop s => Stop s
              | Ok (more, st) => Ok (got ++ more, st)
              end
          end
      else Ok (got, StMore)
  end.

(** do_sweep_query. *)
Definition do_sweep (t : tree) (w : krange) (lim : Z) (batch : nat) (f : gfilter)
  : res (list (Z * N) * status) :=
  match descend (S (level t)) t (r_start w) with
  | Stop s => Stop s
  | Ok l => sweep (S (length (leaves t))) (leaves t) l w lim batch f
  end.

(** do_traversal_query, lines 84-152.  [out] is out_values, which has at most
    batch_size() entries. *)
Fixpoint do_trav (fuel : nat) (t : tree) (w : krange) (lim : Z) (batch : nat)
    (f : gfilter) (out : list (Z * N)) : res (list (Z * N) * status) :=
  match fuel with
  | O => Stop NoFuel
  | S fuel' =>
      match t with
      | Leaf _ _ es =>
          let out' := out ++ multi_get es w (batch - length out) f in
          Ok (out', if (batch <=? length out')%nat then StMore else StSuccess)
      | Inner _ _ es ed =>
          let s := snd (bsearch_node es (r_start w)) in
          let e := snd (bsearch_node es lim) in
          let edge := match ed with Some _ => true | None => false end in
          if (s =? length es)%nat && negb edge then Ok (out, StSuccess)
          else
            let e' := if (e =? length es)%nat && negb edge then (e - 1)%nat else e in
            if (e' <? s)%nat then Stop BadRange
            else
              match children es ed s (S e' - s) with
              | None => Stop BadChild
              | Some xs =>
                  (fix loop (xs : list tree) (out : list (Z * N)) :=
                     match xs with
                     | [] => Ok (out, StSuccess)
                     | x :: r =>
                         match do_trav fuel' x w lim batch f out with
                         | Stop s => Stop s
                         | Ok (out', StMore) => Ok (out', StMore)
                         | Ok (out', _) => loop r out'
                         end
                     end) xs out
              end
      end
  end.

(** Btree::query, btree.ipp 237-287, with an empty out_values.  [inp] is the
    input range, [w] the working range, which a query never trims; the result
    is out_values, the status and the working range for the next page
    (shift_working_range, btree_kv.hpp 230-238). *)
Definition query (kd : qkind) (t : tree) (inp w : krange) (batch : nat)
    (f : gfilter) : res (list (Z * N) * status * krange) :=
  if (batch =? 0)%nat then Ok ([], StSuccess, w)
  else
    match match kd with
          | QSweep => do_sweep t w (r_end inp) batch f
          | QTraverse => do_trav (S (level t)) t w (r_end inp) batch f []
          end with
    | Stop s => Stop s
    | Ok (out, st) =>
        match out with
        | [] => Ok (out, st, w)
        | _ =>
            let k := last_key c out in
            Ok (out, if (r_end inp <=? k)%Z then StSuccess else st,
                KRange k false (r_end w) (r_eincl w) (r_opt w))
        end
    end.

(** A caller that asks for pages until the status is not has_more. *)
Fixpoint pages (fuel : nat) (kd : qkind) (t : tree) (inp w : krange)
    (batch : nat) (f : gfilter) : res (list (list (Z * N))) :=
  match fuel with
  | O => Stop NoFuel
  | S fuel' =>
      match query kd t inp w batch f with
      | Stop s => Stop s
      | Ok (out, StMore, w') =>
          match pages fuel' kd t inp w' batch f with
          | Stop s => Stop s
          | Ok l => Ok (out :: l)
          end
      | Ok (out, _, _) => Ok [out]
      end
  end.

End Query.
