(** Nodes with entries of one size: detail/simple_node.hpp (SimpleNode) with
    the header fields of detail/btree_node.hpp it uses.

    Entry i is at i times the entry size in the data area: the key bytes, then
    the value bytes.  The edge link of an interior node is in the header.

    Modelled: the bytes of the data area and every memmove and memcpy on them.
    The code checks neither indices nor room (only with debug asserts); the
    model tells when a copy would read or write outside the data area
    ([Clobber]) and when an index calculation in uint32_t would wrap or the
    code relies on a debug assert ([Bad]).  The edge is valid when its node id
    is not empty_bnodeid ([Some]).  Not modelled: generation numbers, the
    test-only limits on the number of keys (_PRERELEASE), arguments that point
    into the node itself. *)
From Coq Require Import NArith List Bool Arith.
Import ListNotations.

Inductive stop :=
| Assert     (* RELEASE_ASSERT of set_nth_value, simple_node.hpp 397 *)
| Clobber    (* bytes read or written outside the data area *)
| Bad.       (* wrapped index, or a state only a debug assert looks at *)
Inductive res (A : Type) := Ok (a : A) | Stop (s : stop).
Arguments Ok {A} a.
Arguments Stop {A} s.
Definition bind {A B} (x : res A) (f : A -> res B) : res B :=
  match x with Ok a => f a | Stop s => Stop s end.

Notation bytes := (list N).

(** The data area: bytes by offset, node_data_area, btree_node.hpp 492-493. *)
Definition mem := nat -> N.
Definition read (m : mem) (off len : nat) : bytes := map (fun i => m (off + i)) (seq 0 len).
Definition write (m : mem) (off : nat) (b : bytes) : mem :=
  fun a => if (off <=? a) && (a <? off + length b) then nth (a - off) b 0%N else m a.

(** f_data: node_data_size(), f_n: nentries, f_edge: edge_info; btree_node.hpp
    40-71, 334, 519-531, 556-570. *)
Record node := Node {
  f_data : nat; f_leaf : bool; f_n : nat; f_edge : option bytes; f_mem : mem }.

(** Constructor with init, 33-36 and btree_node.hpp 104-110: the data area is
    what the buffer had. *)
Definition new_node (data : nat) (leaf : bool) (m : mem) : node := Node data leaf 0 None m.

Definition with_mem (nd : node) (m : mem) : node :=
  Node (f_data nd) (f_leaf nd) (f_n nd) (f_edge nd) m.
Definition with_n (nd : node) (n : nat) : node :=
  Node (f_data nd) (f_leaf nd) n (f_edge nd) (f_mem nd).
Definition with_edge (nd : node) (e : option bytes) : node :=
  Node (f_data nd) (f_leaf nd) (f_n nd) e (f_mem nd).

(** memcpy or memmove of [b] into the data area at [off]. *)
Definition store (nd : node) (off : nat) (b : bytes) : res node :=
  if off + length b <=? f_data nd then Ok (with_mem nd (write (f_mem nd) off b))
  else Stop Clobber.
(** The source of a memcpy or memmove in the data area of [nd]. *)
Definition load (nd : node) (off len : nat) : res bytes :=
  if off + len <=? f_data nd then Ok (read (f_mem nd) off len) else Stop Clobber.

Section Size.
(** dummy_key<K>.serialized_size() and dummy_value<V>.serialized_size(),
    379, 381. *)
Context (ks vs : nat).

(** get_nth_obj_size, 355-357. *)
Definition obj : nat := ks + vs.

(** available_size 188-190, get_available_entries 377. *)
Definition available_size (nd : node) : nat := f_data nd - f_n nd * obj.
Definition available_entries (nd : node) : nat := available_size nd / obj.

(** get_nth_key_internal 192-196, get_nth_value 198-209. *)
Definition key_at (nd : node) (i : nat) : bytes := read (f_mem nd) (obj * i) ks.
Definition val_at (nd : node) (i : nat) : bytes := read (f_mem nd) (obj * i + ks) vs.
Definition entries (nd : node) : list (bytes * bytes) :=
  map (fun i => (key_at nd i, val_at nd i)) (seq 0 (f_n nd)).

(** set_nth_value, 394-406. *)
Definition set_nth_value (nd : node) (i : nat) (v : bytes) : res node :=
  if f_n nd <=? i then
    if f_leaf nd then Stop Assert else Ok (with_edge nd (Some v))
  else store nd (obj * i + ks) v.

(** set_nth_obj, 364-375. *)
Definition set_nth_obj (nd : node) (i : nat) (k v : bytes) : res node :=
  if f_n nd <? i then set_nth_value nd i v
  else bind (store nd (obj * i) k) (fun nd => store nd (obj * i + length k) v).

(** insert, 50-62. *)
Definition insert (nd : node) (i : nat) (k v : bytes) : res node :=
  if f_n nd <? i then Stop Bad
  else
    let sz := (f_n nd - i) * obj in
    bind (if sz =? 0 then Ok nd
          else bind (load nd (obj * i) sz) (store nd (obj * (i + 1))))
      (fun nd => bind (set_nth_obj nd i k v) (fun nd => Ok (with_n nd (f_n nd + 1)))).

(** update of the value only, 64-73. *)
Definition update_value (nd : node) (i : nat) (v : bytes) : res node := set_nth_value nd i v.

(** update with a key, 75-83; set_edge_value on a leaf is only a debug assert. *)
Definition update (nd : node) (i : nat) (k v : bytes) : res node :=
  if i =? f_n nd then if f_leaf nd then Stop Bad else Ok (with_edge nd (Some v))
  else set_nth_obj nd i k v.

(** remove(ind_s, ind_e), both included, 86-109. *)
Definition remove (nd : node) (s e : nat) : res node :=
  let n := f_n nd in
  if (n <? s) || (n <? e) || (S e <? s) then Stop Bad
  else if e =? n then
    match f_leaf nd, f_edge nd, s with
    | false, Some _, S s' =>
        bind (set_nth_value nd n (val_at nd s')) (fun nd => Ok (with_n nd s'))
    | _, _, _ => Stop Bad
    end
  else
    let sz := (n - e - 1) * obj in
    bind (if sz =? 0 then Ok nd
          else bind (load nd (obj * (e + 1)) sz) (store nd (obj * s)))
      (fun nd => Ok (with_n nd (n - (S e - s)))).

(** remove_all, 111-118. *)
Definition remove_all (nd : node) : node := with_edge (with_n nd 0) None.

(** move_out_to_right_by_entries, 120-149. *)
Definition move_right_by_entries (nd other : node) (nentries : nat) : res (node * node * nat) :=
  let ne := Nat.min (Nat.min nentries (f_n nd)) (available_entries other) in
  let sz := ne * obj in
  bind (if sz =? 0 then Ok other
        else
          bind (bind (load other (obj * 0) (f_n other * obj)) (store other (obj * ne)))
            (fun other => bind (load nd (obj * (f_n nd - ne)) sz) (store other (obj * 0))))
    (fun other =>
      let other := with_n other (f_n other + ne) in
      let nd := with_n nd (f_n nd - ne) in
      match f_leaf nd, f_edge nd with
      | false, Some e => Ok (with_edge nd None, with_edge other (Some e), ne)
      | _, _ => Ok (nd, other, ne)
      end).

(** move_out_to_right_by_size, 151-153: bytes moved. *)
Definition move_right_by_size (nd other : node) (size : nat) : res (node * node * nat) :=
  bind (move_right_by_entries nd other (size / obj))
    (fun r => let '(x, y, n) := r in Ok (x, y, obj * n)).

(** num_entries_by_size, 155-157. *)
Definition num_entries_by_size (nd : node) (start size : nat) : nat :=
  Nat.min (size / obj) (f_n nd - start).

(** copy_by_entries, 164-186: from [other] to the end of [nd]. *)
Definition copy_by_entries (nd other : node) (start nentries : nat) : res (node * nat) :=
  if f_n other <? start then Stop Bad
  else
    let ne := Nat.min nentries (f_n other - start) in
    let ne := Nat.min ne (available_entries nd) in
    let sz := ne * obj in
    bind (if sz =? 0 then Ok nd
          else bind (load other (obj * start) sz) (store nd (obj * f_n nd)))
      (fun nd =>
        let nd := with_n nd (f_n nd + ne) in
        match f_leaf other, f_edge other with
        | false, Some e =>
            if start + ne =? f_n other then Ok (with_edge nd (Some e), ne) else Ok (nd, ne)
        | _, _ => Ok (nd, ne)
        end).

(** copy_by_size, 159-162. *)
Definition copy_by_size (nd other : node) (start size : nat) : res (node * nat) :=
  copy_by_entries nd other start (num_entries_by_size other start size).

(** has_room_for_put, 211-219; [upd]: UPDATE. *)
Definition has_room_for_put (upd : bool) (nd : node) : bool :=
  upd || (0 <? available_entries nd).

End Size.
