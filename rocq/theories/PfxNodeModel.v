(** Leaf nodes with shared prefixes: detail/prefix_node.hpp (FixedPrefixNode),
    which all line numbers here refer to.

    An entry is a suffix (part of the key, part of the value) and the number of
    a prefix slot that has the rest of both and a count of its users.  Suffixes
    grow from the front of the node, prefix slots from its end.

    Simplified: keys and values are numbers cut into prefix and suffix by given
    functions (serialize_prefix, serialize_suffix, deserialize of
    BtreeIntervalKey and BtreeIntervalValue, btree_kv.hpp); the bytes of the two
    areas are lists and functions, with the areas meeting as outcome [Clobber];
    only leaf nodes (no edge), the one use of this layout in the repository;
    generation counts left out; searching is the position among sorted keys
    that C40 proves of the binary search.  DEBUG_ASSERTs are not there in a
    release build and stop nothing. *)
From Coq Require Import NArith ZArith List Bool Arith.
From Verif Require Import Base.
Import ListNotations.
Local Open Scope N_scope.

(** How keys and values are cut, and the shift of interval values. *)
Record codec := Codec {
  kp : Z -> N; ks : Z -> N; kj : N -> N -> Z;
  vp : Z -> N; vs : Z -> N; vj : N -> N -> Z;
  vsh : Z -> Z -> Z
}.

(** node_data_size(); header and bitset, 46-54, 865-869; prefix_entry::size 61,
    suffix_entry::size 117; bits of the bitset. *)
Record geom := Geom { g_data : N; g_base : N; g_psz : N; g_ssz : N; g_bits : nat }.

(** reqd_bitset_size, 854-858, with the multiple [mul] of the bitset. *)
Definition bitset_bytes (data psz ssz mul : N) : N :=
  let b := (data - 4 - ssz) / psz / 8 in
  (b + mul - 1) / mul * mul.
Definition geometry (data psz ssz mul : N) : geom :=
  let b := bitset_bytes data psz ssz mul in
  Geom data (4 + b) psz ssz (N.to_nat (b * 8)).

Inductive stop :=
| Clobber (* suffixes and prefixes meet: a write to one area hits the other *)
| Full    (* no bit left: slot 65535 is used, which lies behind the node *)
| NoRoom  (* LOGMSG_ASSERT of update, 520 *)
| Bad.    (* index out of bounds *)
Inductive res (A : Type) := Ok (a : A) | Stop (s : stop).
Arguments Ok {A}. Arguments Stop {A}.
Definition bind {A B} (x : res A) (f : A -> res B) : res B :=
  match x with Ok a => f a | Stop s => Stop s end.

(** Suffixes: slot, key part, value part.  Slots: ref_count, key part, value
    part.  n_set: prefix_bitset_; n_used, n_tail: prefix_node_header. *)
Record node := Node {
  n_sufs : list (nat * (N * N));
  n_slot : nat -> N * (N * N);
  n_set : nat -> bool;
  n_used : nat;
  n_tail : nat
}.

(** Constructor with init, 169-178; remove_all, 560-571. *)
Definition new_node : node := Node [] (fun _ => (0, (0, 0))) (fun _ => false) 0 0.

Section Geom.
Context (c : codec) (g : geom).

Definition count (nd : node) : nat := length (n_sufs nd).

Definition upd {A} (f : nat -> A) (i : nat) (x : A) : nat -> A :=
  fun j => if (j =? i)%nat then x else f j.

(** available_size_without_compaction, 761-772. *)
Definition avail (nd : node) : N :=
  g_data g - g_base g - N.of_nat (n_tail nd) * g_psz g - N.of_nat (count nd) * g_ssz g.
(** num_prefix_holes 784-789, compact_saving 369, available_size 371-378,
    occupied_size 380-383. *)
Definition holes (nd : node) : nat := (n_tail nd - n_used nd)%nat.
Definition avail_compact (nd : node) : N := avail nd + N.of_nat (holes nd) * g_psz g.
Definition available (nd : node) : N :=
  if (10 <? holes nd)%nat then avail_compact nd else avail nd.
Definition occupied (nd : node) : N := g_data g - g_base g - available nd.

(** has_room, 776-778; has_room_after_compaction, 780-782. *)
Definition has_room (nd : node) (n : nat) : bool :=
  g_psz g + N.of_nat n * g_ssz g <=? avail nd.
Definition has_room_compact (nd : node) (n : nat) : bool :=
  g_psz g + N.of_nat n * g_ssz g <=? avail_compact nd.

(** The two areas are apart. *)
Definition fits (nd : node) : bool :=
  g_base g + N.of_nat (count nd) * g_ssz g + N.of_nat (n_tail nd) * g_psz g <=? g_data g.
Definition checked (nd : node) : res node := if fits nd then Ok nd else Stop Clobber.

Definition next_reset (nd : node) : option nat :=
  find (fun i => negb (n_set nd i)) (seq 0 (g_bits g)).

(** alloc_prefix, 720-734. *)
Definition alloc (nd : node) : res (nat * node) :=
  match next_reset nd with
  | None => Stop Full
  | Some s =>
      Ok (s, Node (n_sufs nd) (n_slot nd) (upd (n_set nd) s true) (S (n_used nd))
               (Nat.max (S s) (n_tail nd)))
  end.

Definition set_slot (nd : node) (s : nat) (x : N * (N * N)) : node :=
  Node (n_sufs nd) (upd (n_slot nd) s x) (n_set nd) (n_used nd) (n_tail nd).
Definition set_sufs (nd : node) (l : list (nat * (N * N))) : node :=
  Node l (n_slot nd) (n_set nd) (n_used nd) (n_tail nd).

(** add_prefix, 709-718. *)
Definition add_prefix (nd : node) (k v : Z) : res (nat * node) :=
  bind (alloc nd) (fun x => let (s, nd) := x in Ok (s, set_slot nd s (0, (kp c k, vp c v)))).

(** ref_prefix, 736; deref_remove_prefix, 738-752.  Counts have 16 bits. *)
Definition ref (nd : node) (s : nat) : node :=
  let (r, x) := n_slot nd s in set_slot nd s ((r + 1) mod 65536, x).
Definition prev_set (f : nat -> bool) (s : nat) : nat :=
  match find f (rev (seq 0 s)) with Some i => S i | None => 0%nat end.
Definition deref (nd : node) (s : nat) : node :=
  let (r, x) := n_slot nd s in
  let r := (r + 65535) mod 65536 in
  let nd := set_slot nd s (r, x) in
  if r =? 0 then
    let f := upd (n_set nd) s false in
    Node (n_sufs nd) (n_slot nd) f (n_used nd - 1)
      (if (S s =? n_tail nd)%nat then prev_set f s else n_tail nd)
  else nd.

(** write_suffix at a place that is there, 754-759. *)
Definition write_suffix (nd : node) (i s : nat) (k v : Z) : node :=
  ref (set_sufs nd (firstn i (n_sufs nd) ++ (s, (ks c k, vs c v)) :: skipn (S i) (n_sufs nd))) s.
(** The memmove that makes place for a suffix, 246-248, 490-491. *)
Definition open_suffix (nd : node) (i : nat) : node :=
  set_sufs nd (firstn i (n_sufs nd) ++ (0%nat, (0, 0)) :: skipn i (n_sufs nd)).

(** get_nth_key_internal, get_nth_value, 340-361. *)
Definition key_of (nd : node) (x : nat * (N * N)) : Z :=
  kj c (fst (snd (n_slot nd (fst x)))) (fst (snd x)).
Definition val_of (nd : node) (x : nat * (N * N)) : Z :=
  vj c (snd (snd (n_slot nd (fst x)))) (snd (snd x)).
Definition entries (nd : node) : list (Z * Z) :=
  map (fun x => (key_of nd x, val_of nd x)) (n_sufs nd).

(** The loop of compact, 803-826, over the slots from used_slots on. *)
Fixpoint compact_loop (l : list nat) (nd : node) : res node :=
  match l with
  | [] => Ok nd
  | from :: l' =>
      if n_set nd from then
        match next_reset nd with
        | None => Stop Full
        | Some to =>
            compact_loop l'
              (Node (map (fun x => if (fst x =? from)%nat then (to, snd x) else x) (n_sufs nd))
                 (upd (n_slot nd) to (n_slot nd from))
                 (upd (upd (n_set nd) from false) to true) (n_used nd) (n_tail nd))
        end
      else compact_loop l' nd
  end.
(** compact, 793-834. *)
Definition compact (nd : node) : res node :=
  bind (compact_loop (seq (n_used nd) (g_bits g - n_used nd)) nd)
    (fun nd => Ok (Node (n_sufs nd) (n_slot nd) (n_set nd) (n_used nd) (n_used nd))).

(** insert, 487-501: false for space_not_avail. *)
Definition insert (nd : node) (i : nat) (k v : Z) : res (node * bool) :=
  if negb (has_room nd 1) then Ok (nd, false)
  else if (count nd <? i)%nat then Stop Bad
  else
    bind (add_prefix (open_suffix nd i) k v)
      (fun x => let (s, nd) := x in
        bind (checked (write_suffix nd i s k v)) (fun nd => Ok (nd, true))).

(** update, 507-530. *)
Definition update (nd : node) (i : nat) (k v : Z) : res node :=
  if (count nd <=? i)%nat then Stop Bad
  else
    bind (if has_room nd 1 then Ok nd
          else if has_room_compact nd 1 then compact nd else Stop NoRoom)
      (fun nd => bind (add_prefix nd k v)
        (fun x => let (s, nd) := x in checked (write_suffix nd i s k v))).

(** remove(idx), 532-552. *)
Definition remove (nd : node) (i : nat) : res node :=
  match nth_error (n_sufs nd) i with
  | None => Stop Bad
  | Some x =>
      let nd := deref nd (fst x) in
      Ok (set_sufs nd (firstn i (n_sufs nd) ++ skipn (S i) (n_sufs nd)))
  end.

(** remove(idx_s, idx_e), 554-558: [n] is idx_e - idx.  At idx = total_entries a
    leaf only writes its unused edge. *)
Fixpoint remove_range (nd : node) (i n : nat) : res node :=
  match n with
  | O => Ok nd
  | S n' =>
      bind (if (i =? count nd)%nat then Ok nd else remove nd i)
        (fun nd => remove_range nd (S i) n')
  end.

(** ** Range operations *)

Record krange := KRange { r_start : Z; r_sincl : bool; r_end : Z; r_eincl : bool }.
Definition first_key (r : krange) : Z := if r_sincl r then r_start r else (r_start r + 1)%Z.
Definition beyond (r : krange) (k : Z) : bool :=
  (r_end r <? k)%Z || ((k =? r_end r)%Z && negb (r_eincl r)).

Inductive pkind := Insert_ | Upsert_ | Update_.
Inductive decision := Keep | Replace | Drop.
Inductive status := Done | NoSpace | More (k : Z).

(** find: position among the keys. *)
Definition position (nd : node) (k : Z) : nat :=
  length (filter (fun e => (fst e <? k)%Z) (entries nd)).
Definition key_at (nd : node) (i : nat) (k : Z) : bool :=
  match nth_error (entries nd) i with Some e => (fst e =? k)%Z | None => false end.

(** One key of multi_put, 226-266: [slot] is the prefix slot made before, if
    any.  The entry is replaced, removed, kept or made. *)
Definition put_one (nd : node) (kd : pkind) (flt : option (Z -> Z -> Z -> decision))
  (first v k : Z) (i : nat) (slot : option nat) : res (node * option nat * decision) :=
  let found := key_at nd i k in
  bind
    (if found then
       let d := match kd, flt with
                | Insert_, _ => Keep
                | _, Some f => f k (snd (nth i (entries nd) (0, 0)%Z)) v
                | _, None => Replace
                end in
       match d with
       | Drop => bind (remove nd i) (fun nd => Ok (nd, Drop))
       | Keep => Ok (nd, Keep)
       | Replace =>
           match nth_error (n_sufs nd) i with
           | Some x => Ok (deref nd (fst x), Replace)
           | None => Stop Bad
           end
       end
     else match kd with
          | Update_ => Ok (nd, Keep)
          | _ => if (count nd <? i)%nat then Stop Bad else Ok (open_suffix nd i, Replace)
          end)
    (fun x => let (nd, d) := x in
      match d with
      | Replace =>
          bind (match slot with Some s => Ok (s, nd) | None => add_prefix nd k v end)
            (fun x => let (s, nd) := x in
              let v' := vsh c v (k - first)%Z in
              bind (if (fst (snd (n_slot nd s)) =? kp c k) && (snd (snd (n_slot nd s)) =? vp c v')
                    then Ok (s, nd) else add_prefix nd k v')
                (fun x => let (s, nd) := x in
                  bind (checked (write_suffix nd i s k v'))
                    (fun nd => Ok (nd, Some s, d))))
      | _ => Ok (nd, slot, d)
      end).

(** The loop of multi_put, 219-273; [fuel] bounds the number of keys. *)
Fixpoint put_loop (fuel : nat) (nd : node) (r : krange) (kd : pkind)
  (flt : option (Z -> Z -> Z -> decision)) (first v k : Z) (i : nat) (slot : option nat)
  : res (node * status) :=
  match fuel with
  | O => Stop Bad
  | S fuel =>
      if beyond r k then Ok (nd, Done)
      else
        bind (put_one nd kd flt first v k i slot)
          (fun x => let '(nd, slot, d) := x in
            if has_room nd 1 then
              put_loop fuel nd r kd flt first v (k + 1)%Z
                (match d with Drop => i | _ => S i end) slot
            else Ok (nd, More (k + 1)%Z))
  end.

(** multi_put, 204-289. *)
Definition multi_put (nd : node) (r : krange) (first v : Z) (kd : pkind)
  (flt : option (Z -> Z -> Z -> decision)) : res (node * status) :=
  let k := first_key r in
  if negb (has_room nd 1) then Ok (nd, NoSpace)
  else put_loop (S (Z.to_nat (r_end r - k + 1))) nd r kd flt first v k (position nd k) None.

(** The loop of multi_remove, 313-328: [n] entries from [i] on are left. *)
Fixpoint remove_loop (n : nat) (nd : node) (r : krange) (flt : option (Z -> Z -> bool))
  (i removed : nat) : res (node * nat) :=
  match n with
  | O => Ok (nd, removed)
  | S n' =>
      match nth_error (n_sufs nd) i with
      | None => Ok (nd, removed)
      | Some x =>
          if beyond r (key_of nd x) then Ok (nd, removed)
          else if match flt with None => true | Some f => f (key_of nd x) (val_of nd x) end then
            bind (remove nd i) (fun nd => remove_loop n' nd r flt i (S removed))
          else remove_loop n' nd r flt (S i) removed
      end
  end.
(** multi_remove, 304-337. *)
Definition multi_remove (nd : node) (r : krange) (flt : option (Z -> Z -> bool))
  : res (node * nat) :=
  let i := position nd (first_key r) in
  remove_loop (count nd - i) nd r flt i 0.

(** ** Moving and copying *)

Definition lookup (m : list (nat * nat)) (s : nat) : option nat :=
  match find (fun x => (fst x =? s)%nat) m with Some x => Some (snd x) | None => None end.

(** Step 1 of move_out_to_right_internal, 418-456: [l] has the suffixes not yet
    seen, last one first; [out] the suffixes for the other node. *)
Fixpoint move_loop (l : list (nat * (N * N))) (nd dst : node) (m : list (nat * nat))
  (by_size : bool) (limit size num : N) (out : list (nat * (N * N)))
  : res (node * node * list (nat * (N * N)) * N) :=
  match l with
  | [] => Ok (nd, dst, out, size)
  | x :: l' =>
      if (if by_size then limit <? size else num =? limit) then Ok (nd, dst, out, size)
      else
        match lookup m (fst x) with
        | None =>
            bind (alloc dst)
              (fun y => let (s, dst) := y in
                move_loop l' (deref nd (fst x)) (set_slot dst s (1, snd (n_slot nd (fst x))))
                  ((fst x, s) :: m) by_size limit (size + g_psz g + g_ssz g) (num + 1)
                  ((s, snd x) :: out))
        | Some s =>
            move_loop l' (deref nd (fst x)) (ref dst s) m by_size limit (size + g_ssz g) (num + 1)
              ((s, snd x) :: out)
        end
  end.
(** move_out_to_right_internal, 405-485, into an empty node (the suffixes are
    written at its start).  Results: both nodes, how many were moved, and the
    number returned, 484. *)
Definition move_right (nd dst : node) (by_size : bool) (limit : N)
  : res (node * node * nat * N) :=
  if negb (count dst =? 0)%nat then Stop Bad
  else if (count nd =? 0)%nat then Ok (nd, dst, 0%nat, if by_size then 0 else occupied dst)
  else
    bind (move_loop (rev (n_sufs nd)) nd dst [] by_size limit (occupied dst) 0 [])
      (fun x => let '(nd, dst, out, size) := x in
        let nd := set_sufs nd (firstn (count nd - length out) (n_sufs nd)) in
        bind (checked (set_sufs dst out))
          (fun dst =>
            bind (if (10 <? holes nd)%nat then compact nd else Ok nd)
              (fun nd => Ok (nd, dst, length out,
                 if by_size then N.of_nat (length out) else size)))).

(** The loop of copy_internal, 630-664: [l] has the suffixes of the other node
    still to see; total_entries of this node grows after the loop. *)
Fixpoint copy_loop (l : list (nat * (N * N))) (src nd : node) (m : list (nat * nat))
  (by_size : bool) (limit size num : N) (out : list (nat * (N * N)))
  : res (node * list (nat * (N * N)) * N) :=
  match l with
  | [] => Ok (nd, out, size)
  | x :: l' =>
      if negb (has_room nd 1) then Ok (nd, out, size)
      else if negb by_size && (limit <=? num) then Ok (nd, out, size)
      else
        match lookup m (fst x) with
        | None =>
            let size := size + g_psz g + g_ssz g in
            if by_size && (limit <? size) then Ok (nd, out, size)
            else
              bind (alloc nd)
                (fun y => let (s, nd) := y in
                  copy_loop l' src (set_slot nd s (1, snd (n_slot src (fst x))))
                    ((fst x, s) :: m) by_size limit size (num + 1) (out ++ [(s, snd x)]))
        | Some s =>
            let size := size + g_ssz g in
            if by_size && (limit <? size) then Ok (nd, out, size)
            else
              copy_loop l' src (ref nd s) m by_size limit size (num + 1) (out ++ [(s, snd x)])
        end
  end.
(** copy_internal, 605-681. *)
Definition copy_internal (nd src : node) (start : nat) (by_size : bool) (limit : N)
  : res (node * nat * N) :=
  bind (copy_loop (skipn start (n_sufs src)) src nd [] by_size limit 0 0 [])
    (fun x => let '(nd, out, size) := x in
      bind (checked (set_sufs nd (n_sufs nd ++ out)))
        (fun nd => Ok (nd, length out, if by_size then N.of_nat (length out) else size))).
(** copy_by_size, copy_by_entries, 594-603. *)
Definition copy_by_size (nd src : node) (start : nat) (size : N) : res (node * nat * N) :=
  copy_internal nd src start true size.
Definition copy_by_entries (nd src : node) (start n : nat) : res (node * nat * N) :=
  if (n =? 0)%nat then Ok (nd, 0%nat, 0)
  else
    bind (if negb (has_room nd n) && has_room_compact nd n then compact nd else Ok nd)
      (fun nd => copy_internal nd src start false (N.of_nat n)).

End Geom.
