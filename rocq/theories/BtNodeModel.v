(** Model of the operations on the entries of one B-tree node.

    Sources, all under src/include/homestore/btree in /repo:
    detail/btree_node.hpp (search and range matching), detail/variant_node.hpp
    (get, put and remove on a node), btree_kv.hpp (key ranges), btree_req.hpp
    (filters).

    Keys are integers under their order (the code calls K::compare, a total
    order given by the user), values are opaque numbers.  A node is the list of
    its entries in slot order; how entries are laid out in bytes is modelled
    elsewhere (VarNodeModel.v).  Magic checks, generations and locks are left
    out. *)
From Coq Require Import ZArith NArith List Bool.
From Verif Require Import Base.
Import ListNotations.
Local Open Scope Z_scope.

(** btree_put_type, detail/btree_internal.hpp: ENUM(btree_put_type, ...). *)
Inductive pkind := PInsert | PUpdate | PUpsert.

(** btree_status_t, the values that the modelled functions return. *)
Inductive status :=
  StSuccess | StNotFound | StExists | StFiltered | StMore | StUnsupported.

(** put_filter_decision, btree_req.hpp 83. *)
Inductive decision := DKeep | DReplace | DRemove.

(** MultiMatchOption, btree_kv.hpp / btree_internal.hpp. *)
Inductive mmatch := MAny | MLeft | MRight | MMid.

(** BtreeKeyRange, btree_kv.hpp 84-141. *)
Record krange := KRange {
  r_start : Z;
  r_sincl : bool;
  r_end : Z;
  r_eincl : bool;
  r_opt : mmatch
}.

(** The key in slot [i] (get_nth_key_internal); [0] outside, which the callers
    never read: see [bsearch]. *)
Definition nth_key {A} (es : list (Z * A)) (i : Z) : Z :=
  match nth_error es (Z.to_nat i) with Some (k, _) => k | None => 0 end.

(** BtreeNode::bsearch, btree_node.hpp 447-474, the loop: the interval
    (start, end) shrinks until nothing is between.  compare_nth_key(key, mid)
    is nth_key(mid).compare(key), variant_node.hpp 173-175. *)
Fixpoint bsearch {A} (fuel : nat) (es : list (Z * A)) (key s e : Z)
  : bool * Z :=
  match fuel with
  | O => (false, e)
  | S f =>
      if e - s <=? 1 then (false, e)
      else
        let mid := s + (e - s) / 2 in
        match nth_key es mid ?= key with
        | Eq => (true, mid)
        | Gt => bsearch f es key s mid
        | Lt => bsearch f es key mid e
        end
  end.

(** BtreeNode::bsearch_node, btree_node.hpp 439-445. *)
Definition bsearch_node {A} (es : list (Z * A)) (key : Z) : bool * nat :=
  let '(f, i) :=
    bsearch (S (length es)) es key (-1) (Z.of_nat (length es)) in
  (f, Z.to_nat i).

(** BtreeNode::match_range, btree_node.hpp 186-224.  [leaf] is is_leaf(),
    [edge] has_valid_edge() (false in a leaf).  [None] is "return false";
    indices are then not used by any caller. *)
Definition match_range {A} (leaf edge : bool) (es : list (Z * A))
    (r : krange) : option (nat * nat) :=
  let n := length es in
  let '(sf, s0) := bsearch_node es (r_start r) in
  let s := if sf && negb (r_sincl r) then S s0 else s0 in
  if (s =? n)%nat then
    if negb leaf && edge then Some (s, s) else None
  else
    let '(ef, e0) := bsearch_node es (r_end r) in
    if leaf || ((e0 =? n)%nat && negb edge) then
      if negb ef || negb (r_eincl r) then
        match e0 with
        | O => None
        | S e => if (e <? s)%nat then None else Some (s, e)
        end
      else if (e0 <? s)%nat then None else Some (s, e0)
    else Some (s, e0).

(** A get filter, btree_req.hpp 197 (get_filter_cb_t); [None] is nullptr. *)
Notation gfilter := (option (Z -> N -> bool)).
Definition accepts (f : gfilter) (k : Z) (v : N) : bool :=
  match f with None => true | Some g => g k v end.

(** VariantNode::multi_get, variant_node.hpp 59-79, on a leaf.  The entries
    are those put into out_values; their number is the returned count. *)
Definition multi_get (es : list (Z * N)) (r : krange) (max : nat)
    (f : gfilter) : list (Z * N) :=
  match match_range true false es r with
  | None => []
  | Some (s, e) =>
      let count := Nat.min (e - s + 1) max in
      filter (fun p => accepts f (fst p) (snd p)) (firstn count (skipn s es))
  end.

(** Result of a get_any: nothing, the entry of a slot, or a read of a slot the
    node does not have (undefined behaviour). *)
Inductive anyres := AnyNone | AnyEntry (i : nat) (k : Z) (v : N) | AnyOutside.

(** found_result of get_any, variant_node.hpp 147-165, without filter. *)
Definition any_at (es : list (Z * N)) (i : nat) : anyres :=
  match nth_error es i with
  | Some (k, v) => AnyEntry i k v
  | None => AnyOutside
  end.

(** VariantNode::get_any, variant_node.hpp 101-165, on a leaf, no filter. *)
Definition get_any (es : list (Z * N)) (r : krange) : anyres :=
  let n := length es in
  let '(sf0, s0) := bsearch_node es (r_start r) in
  let ex := sf0 && negb (r_sincl r) in
  let s := if ex then S s0 else s0 in
  let sf := if ex then false else sf0 in
  if sf && (match r_opt r with MAny | MLeft => true | _ => false end)
  then any_at es s
  else if (s =? n)%nat then AnyNone
  else
    let '(ef0, e0) := bsearch_node es (r_end r) in
    let eex := ef0 && negb (r_eincl r) in
    if eex && (e0 =? 0)%nat then AnyNone
    else
      let e := if eex then (e0 - 1)%nat else e0 in
      let ef := if eex then false else ef0 in
      if (s <? e)%nat then
        match r_opt r with
        | MRight => any_at es e
        | MMid => any_at es ((e - s) / 2)
        | _ => any_at es s
        end
      else if ((s =? e)%nat && (sf || ef))%bool then any_at es s
      else AnyNone.

(** insert, update and remove of a slot: SimpleNode::insert, update, remove,
    simple_node.hpp 50-109, on the entries before the edge. *)
Definition ins_at {A} (es : list (Z * A)) (i : nat) (k : Z) (v : A)
  : list (Z * A) := firstn i es ++ (k, v) :: skipn i es.
Definition upd_at {A} (es : list (Z * A)) (i : nat) (k : Z) (v : A)
  : list (Z * A) := firstn i es ++ (k, v) :: skipn (S i) es.
Definition del_at {A} (es : list (Z * A)) (i : nat) : list (Z * A) :=
  firstn i es ++ skipn (S i) es.

(** A put filter, btree_req.hpp 84: key, old value, new value. *)
Notation pfilter := (option (Z -> N -> N -> decision)).

(** VariantNode::put, variant_node.hpp 198-237.  Result: status, old value
    (existing_val, written when the key is there), entries after. *)
Definition leaf_put (es : list (Z * N)) (kd : pkind) (k : Z) (v : N)
    (f : pfilter) : status * option N * list (Z * N) :=
  let '(found, i) := bsearch_node es k in
  let old := if found then option_map snd (nth_error es i) else None in
  let rejected :=
    match found, f, nth_error es i with
    | true, Some g, Some (k0, v0) =>
        match g k0 v0 v with DReplace => false | _ => true end
    | _, _, _ => false
    end in
  if rejected then (StFiltered, old, es)
  else
    match kd with
    | PInsert =>
        if found then (StExists, old, es)
        else (StSuccess, old, ins_at es i k v)
    | PUpdate =>
        if found then (StSuccess, old, upd_at es i k v)
        else (StNotFound, old, es)
    | PUpsert =>
        (StSuccess, old, if found then upd_at es i k v else ins_at es i k v)
    end.

(** BtreeNode::remove_one, btree_node.hpp 236-244. *)
Definition leaf_remove (es : list (Z * N)) (k : Z)
  : bool * option N * list (Z * N) :=
  let '(found, i) := bsearch_node es k in
  if found then (true, option_map snd (nth_error es i), del_at es i)
  else (false, None, es).

(** BtreeNode::find on a leaf, btree_node.hpp 168-184. *)
Definition leaf_find (es : list (Z * N)) (k : Z) : option N :=
  let '(found, i) := bsearch_node es k in
  if found then option_map snd (nth_error es i) else None.

(** BtreeNode::remove_any, btree_node.hpp 246-254; [None] is a read outside
    the node. *)
Definition leaf_remove_any (es : list (Z * N)) (r : krange)
  : option (option (Z * N) * list (Z * N)) :=
  match get_any es r with
  | AnyNone => Some (None, es)
  | AnyEntry i k v => Some (Some (k, v), del_at es i)
  | AnyOutside => None
  end.

(** Result of multi_put: status, first key that did not fit, entries after;
    [None] when a slot outside the node is used. *)
Notation mputres := (option (status * option Z * list (Z * N))).

(** The loop of VariantNode::multi_put, variant_node.hpp 274-290.  [room k] is
    has_room_for_put(UPDATE, size of k, size of the new value) on the node as
    it is then.  After a removal the index stays and the end index too. *)
Fixpoint multi_put_loop (fuel : nat) (room : list (Z * N) -> Z -> bool)
    (es : list (Z * N)) (i e : nat) (v : N) (f : pfilter) : mputres :=
  match fuel with
  | O => None
  | S fuel' =>
      if (e <? i)%nat then Some (StSuccess, None, es)
      else
        match nth_error es i with
        | None => None
        | Some (k, v0) =>
            if negb (room es k) then Some (StMore, Some k, es)
            else
              match f with
              | None => multi_put_loop fuel' room (upd_at es i k v) (S i) e v f
              | Some g =>
                  match g k v0 v with
                  | DReplace =>
                      multi_put_loop fuel' room (upd_at es i k v) (S i) e v f
                  | DRemove => multi_put_loop fuel' room (del_at es i) i e v f
                  | DKeep => multi_put_loop fuel' room es (S i) e v f
                  end
              end
        end
  end.

(** VariantNode::multi_put, variant_node.hpp 259-292.  The fuel is enough:
    every round removes an entry or moves the index. *)
Definition multi_put (room : list (Z * N) -> Z -> bool) (es : list (Z * N))
    (r : krange) (kd : pkind) (v : N) (f : pfilter) : mputres :=
  match kd with
  | PUpdate =>
      match match_range true false es r with
      | None => Some (StNotFound, None, es)
      | Some (s, e) =>
          multi_put_loop (S (S (length es + e))) room es s e v f
      end
  | _ => Some (StUnsupported, None, es)
  end.

(** A remove filter, btree_req.hpp 127 (remove_filter_cb_t). *)
Notation rfilter := (option (Z -> N -> bool)).

(** The loop of VariantNode::multi_remove, variant_node.hpp 304-312. *)
Fixpoint multi_remove_loop (count : nat) (es : list (Z * N)) (i : nat)
    (f : rfilter) : list (Z * N) :=
  match count with
  | O => es
  | S c =>
      match nth_error es i with
      | None => es
      | Some (k, v) =>
          if accepts f k v then multi_remove_loop c (del_at es i) i f
          else multi_remove_loop c es (S i) f
      end
  end.

(** VariantNode::multi_remove, variant_node.hpp 295-315: the number of removed
    entries and the entries after. *)
Definition multi_remove (es : list (Z * N)) (r : krange) (f : rfilter)
  : nat * list (Z * N) :=
  match match_range true false es r with
  | None => (0%nat, es)
  | Some (s, e) =>
      let es' := multi_remove_loop (e - s + 1) es s f in
      ((length es - length es')%nat, es')
  end.
