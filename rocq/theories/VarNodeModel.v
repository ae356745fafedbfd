(** Nodes with entries of variable size: detail/varlen_node.hpp (VariableNode
    and its three record layouts).

    The data area of a node is
      [var_node_header, 6 bytes][record 0][record 1]...   ...[object][object]
    Records are found by index; each names the place of its object (key bytes
    followed by value bytes).  Objects are placed from the end downwards; the
    lowest place in use is the tail.

    Modelled: the header fields with their 16 bits, the record fields with their
    14 bits, the bytes of the arena.  Records are a list instead of bytes; that
    a byte of an object is never written into the header or the records, nor
    outside the node, is checked by the model ([Clobber]).  Not modelled:
    generation numbers, arguments that point into the node itself, the debug
    checks, the test-only limits on the number of keys (_PRERELEASE). *)
From Coq Require Import NArith List Bool Arith.
Import ListNotations.
Local Open Scope N_scope.

Inductive stop :=
| NoRoom     (* RELEASE_ASSERT of insert, varlen_node.hpp 523-527 *)
| Clobber    (* bytes written outside the arena *)
| Bad.       (* index out of range: assert, or memory outside the node *)
Inductive res (A : Type) := Ok (a : A) | Stop (s : stop).
Arguments Ok {A} a.
Arguments Stop {A} s.

Definition bind {A B} (x : res A) (f : A -> res B) : res B :=
  match x with Ok a => f a | Stop s => Stop s end.

(** uint16_t and 14 bit fields. *)
Definition w16 (x : N) : N := x mod 65536.
Definition sub16 (a b : N) : N := (a + 65536 - b mod 65536) mod 65536.
Definition w14 (x : N) : N := x mod 16384.

Notation bytes := (list N).
Definition blen (b : bytes) : N := N.of_nat (length b).

(** btree_obj_record with the lengths, 28-31, 698-703, 730-735, 764-772. *)
Record rec := Rec { r_off : N; r_klen : N; r_vlen : N }.

(** VarKeySizeNode: values have [vsz] bytes, 675-707.  VarValueSizeNode: keys
    have [ksz] bytes, 709-739.  VarObjSizeNode, 741-772. *)
Inductive kind := VarKey (vsz : N) | VarValue (ksz : N) | VarObj.

(** get_record_size, 673, 705, 737. *)
Definition rec_size (kd : kind) : N := match kd with VarObj => 6 | _ => 4 end.

(** get_nth_key_size 684-686, 716, 748-750; get_nth_value_size. *)
Definition ksize (kd : kind) (r : rec) : N := match kd with VarValue k => k | _ => r_klen r end.
Definition vsize (kd : kind) (r : rec) : N := match kd with VarKey v => v | _ => r_vlen r end.
Definition osize (kd : kind) (r : rec) : N := ksize kd r + vsize kd r.

(** A record as set_nth_key_len, set_nth_value_len, set_record_data_offset
    leave it. *)
Definition mk_rec (off klen vlen : N) : rec := Rec (w14 off) (w14 klen) (w14 vlen).

(** The arena: bytes by offset in the data area. *)
Definition mem := N -> N.
Definition read (m : mem) (off len : N) : bytes :=
  map (fun i => m (off + N.of_nat i)) (seq 0 (N.to_nat len)).
Definition write (m : mem) (off : N) (b : bytes) : mem :=
  fun a => if (off <=? a) && (a <? off + blen b) then nth (N.to_nat (a - off)) b 0 else m a.

(** n_data: node_data_size(); n_init, n_tail, n_avail: var_node_header, 33-43;
    n_edge: the edge link of an interior node. *)
Record node := Node {
  n_data : N; n_leaf : bool;
  n_init : N; n_tail : N; n_avail : N;
  n_recs : list rec; n_edge : option bytes; n_mem : mem }.

Definition hdr : N := 6.
Definition count (nd : node) : nat := length (n_recs nd).

(** Constructor with init, 59-69. *)
Definition new_node (data : N) (leaf : bool) (m : mem) : node :=
  Node data leaf (w16 data) (w16 data) (sub16 (w16 data) hdr) [] None m.

Section Kind.
Context (kd : kind).

(** std::sort of compact by descending offset, 601-603: any sorting function
    will do, see [sorts]. *)
Context (srt : list (N * nat) -> list (N * nat)).

(** get_arena_free_space, 669-672. *)
Definition arena_free (nd : node) : N :=
  sub16 (sub16 (n_tail nd) hdr) (N.of_nat (count nd) * rec_size kd).

Fixpoint set_nth {A} (i : nat) (x : A) (l : list A) : list A :=
  match l, i with
  | [], _ => []
  | _ :: r, O => x :: r
  | y :: r, S i' => y :: set_nth i' x r
  end.

(** The loop of compact, 607-631.  [n]: number of entries. *)
Fixpoint compact_loop (data : N) (n : nat) (order : list (N * nat)) (recs : list rec)
    (m : mem) (last : N) : res (list rec * mem * N) :=
  match order with
  | [] => Ok (recs, m, last)
  | (off, i) :: order' =>
      match nth_error recs i with
      | None => Stop Bad
      | Some r =>
          let len := w16 (osize kd r) in
          let sparse := sub16 last (w16 (off + len)) in
          if 0 <? sparse then
            let dst := r_off r + sparse in
            if (hdr + N.of_nat n * rec_size kd <=? dst) && (dst + len <=? data) then
              let r' := Rec (w14 (r_off r + sparse)) (r_klen r) (r_vlen r) in
              compact_loop data n order' (set_nth i r' recs)
                (write m dst (read m (r_off r) len)) (r_off r')
            else Stop Clobber
          else compact_loop data n order' recs m off
      end
  end.

(** compact, 573-637. *)
Definition compact (nd : node) : res node :=
  match n_recs nd with
  | [] => Ok (Node (n_data nd) (n_leaf nd) (n_init nd) (n_init nd) (n_avail nd) []
                (n_edge nd) (n_mem nd))
  | recs =>
      let order := srt (combine (map r_off recs) (seq 0 (length recs))) in
      bind (compact_loop (n_data nd) (length recs) order recs (n_mem nd) (n_init nd))
        (fun x => let '(recs', m', last) := x in
          Ok (Node (n_data nd) (n_leaf nd) (n_init nd) last (n_avail nd) recs'
                (n_edge nd) m'))
  end.

(** insert of blobs, 518-567. *)
Definition insert (nd : node) (ind : nat) (k v : bytes) : res node :=
  if (count nd <? ind)%nat then Stop Bad
  else
    let obj := w16 (blen k + blen v) in
    let ins := w16 (obj + rec_size kd) in
    if n_avail nd <? ins then Stop NoRoom
    else
      bind (if arena_free nd <? ins then compact nd else Ok nd)
        (fun nd =>
          let tail := sub16 (n_tail nd) obj in
          if (hdr + N.of_nat (S (count nd)) * rec_size kd <=? tail) &&
             (tail + (blen k + blen v) <=? n_data nd) then
            Ok (Node (n_data nd) (n_leaf nd) (n_init nd) tail (sub16 (n_avail nd) ins)
                  (firstn ind (n_recs nd) ++ mk_rec tail (blen k) (blen v) ::
                   skipn ind (n_recs nd))
                  (n_edge nd) (write (n_mem nd) tail (k ++ v)))
          else Stop Clobber).

(** get_nth_obj with the sizes: key and value of an entry, 474-489, 646-648. *)
Definition key_at (nd : node) (r : rec) : bytes := read (n_mem nd) (r_off r) (ksize kd r).
Definition val_at (nd : node) (r : rec) : bytes :=
  read (n_mem nd) (r_off r + ksize kd r) (vsize kd r).
Definition entries (nd : node) : list (bytes * bytes) :=
  map (fun r => (key_at nd r, val_at nd r)) (n_recs nd).

(** The bytes remove gives back for the records [l], 176-178, 182-184. *)
Definition give_back (avail : N) (l : list rec) : N :=
  fold_left (fun a r => w16 (a + (ksize kd r + vsize kd r + rec_size kd))) l avail.

Definition with_recs (nd : node) (avail : N) (l : list rec) (e : option bytes) : node :=
  Node (n_data nd) (n_leaf nd) (n_init nd) (n_tail nd) avail l e (n_mem nd).

(** remove(ind_s, ind_e), both included, 161-191.  ind_e may be the index of
    the edge: then the value before ind_s becomes the edge.  With ind_s =
    ind_e + 1 nothing is removed. *)
Definition remove (nd : node) (s e : nat) : res node :=
  let n := count nd in
  if (n <? s)%nat || (n <? e)%nat || (S e <? s)%nat then Stop Bad
  else if (e =? n)%nat then
    if n_leaf nd then Stop Bad
    else
      match n_edge nd, s with
      | Some _, S s' =>
          match nth_error (n_recs nd) s' with
          | Some r =>
              Ok (with_recs nd (give_back (n_avail nd) (skipn s' (n_recs nd)))
                    (firstn s' (n_recs nd)) (Some (val_at nd r)))
          | None => Stop Bad
          end
      | _, _ => Stop Bad
      end
  else
    Ok (with_recs nd
          (give_back (n_avail nd) (firstn (S e - s) (skipn s (n_recs nd))))
          (firstn s (n_recs nd) ++ skipn (S e) (n_recs nd)) (n_edge nd)).

(** update with a key, 121-160. *)
Definition update (nd : node) (ind : nat) (k v : bytes) : res node :=
  if (ind =? count nd)%nat then
    if n_leaf nd then Stop Bad
    else Ok (with_recs nd (n_avail nd) (n_recs nd) (Some v))
  else
    match nth_error (n_recs nd) ind with
    | None => Stop Bad
    | Some r =>
        let newsz := w16 (blen k + blen v) in
        let cur := w16 (osize kd r) in
        if newsz <=? cur then
          if (hdr + N.of_nat (count nd) * rec_size kd <=? r_off r) &&
             (r_off r + (blen k + blen v) <=? n_data nd) then
            Ok (Node (n_data nd) (n_leaf nd) (n_init nd) (n_tail nd)
                  (w16 (n_avail nd + (cur - newsz)))
                  (set_nth ind (Rec (r_off r) (w14 (blen k)) (w14 (blen v))) (n_recs nd))
                  (n_edge nd)
                  (write (write (n_mem nd) (r_off r) k) (r_off r + blen k) v))
          else Stop Clobber
        else bind (remove nd ind ind) (fun nd => insert nd ind k v)
    end.

(** update of the value only, 107-118. *)
Definition update_value (nd : node) (ind : nat) (v : bytes) : res node :=
  if (ind =? count nd)%nat then
    if n_leaf nd then Stop Bad
    else Ok (with_recs nd (n_avail nd) (n_recs nd) (Some v))
  else
    match nth_error (n_recs nd) ind with
    | None => Stop Bad
    | Some r => update nd ind (key_at nd r) v
    end.

(** remove_all, 193-203. *)
Definition remove_all (nd : node) : node :=
  Node (n_data nd) (n_leaf nd) (w16 (n_data nd)) (w16 (n_data nd))
    (sub16 (w16 (n_data nd)) hdr) [] None (n_mem nd).

(** available_size 453, occupied_size 74-76, has_room_for_put 462-468. *)
Definition occupied (nd : node) : N := n_init nd - hdr - n_avail nd.
Definition has_room_for_put (upd : bool) (nd : node) (klen vlen : N) : bool :=
  klen + vlen + (if upd then 0 else rec_size kd) <=? n_avail nd.

(** num_entries_by_size, 298-310. *)
Fixpoint num_by_size (l : list rec) (cum size : N) : nat :=
  match l with
  | [] => 0%nat
  | r :: l' =>
      let cum := cum + (rec_size kd + ksize kd r + vsize kd r) in
      if size <? cum then 0%nat else S (num_by_size l' cum size)
  end.
Definition num_entries_by_size (nd : node) (start : nat) (size : N) : nat :=
  num_by_size (skipn start (n_recs nd)) 0 size.

(** set_edge_info and invalidate_edge after a move to the right, 243-247,
    283-287. *)
Definition move_edge (nd other : node) : node * node :=
  if negb (n_leaf nd) && negb (count other =? 0)%nat then
    (with_recs nd (n_avail nd) (n_recs nd) None,
     with_recs other (n_avail other) (n_recs other) (n_edge nd))
  else (nd, other).

(** The loop of move_out_to_right_by_size, 265-280: [ind] as in the code, the
    result is its last value, the other node and how many were moved. *)
Fixpoint move_size_loop (nd other : node) (ind : nat) (size : N) (nmoved : nat)
  : res (nat * node * nat) :=
  match ind with
  | O => Ok (O, other, nmoved)
  | S ind' =>
      match nth_error (n_recs nd) ind with
      | None => Stop Bad
      | Some r =>
          if size <? ksize kd r + vsize kd r + rec_size kd then Ok (ind, other, nmoved)
          else
            bind (insert other 0 (key_at nd r) (val_at nd r))
              (fun other => move_size_loop nd other ind'
                 (size - (ksize kd r + vsize kd r + rec_size kd)) (S nmoved))
      end
  end.

(** move_out_to_right_by_size, 259-296. *)
Definition move_right_by_size (nd other : node) (size : N) : res (node * node * nat) :=
  match count nd with
  | O => Stop Bad
  | S last =>
      bind (move_size_loop nd other last size 0)
        (fun x => let '(ind, other, nmoved) := x in
          bind (remove nd (S ind) last)
            (fun nd => let '(nd, other) := move_edge nd other in Ok (nd, other, nmoved)))
  end.

(** The loop of move_out_to_right_by_entries, 225-241: [todo] entries left,
    the next one is [ind]; the result is the other node and the last value of
    ind, None when everything was moved (full_move). *)
Fixpoint move_entries_loop (nd other : node) (ind todo : nat) {struct todo}
  : res (node * option nat) :=
  match todo with
  | O => Ok (other, Some ind)
  | S todo' =>
      match nth_error (n_recs nd) ind with
      | None => Stop Bad
      | Some r =>
          bind (insert other 0 (key_at nd r) (val_at nd r))
            (fun other =>
              match ind with
              | O => Ok (other, None)
              | S ind' => move_entries_loop nd other ind' todo'
              end)
      end
  end.

(** move_out_to_right_by_entries, 216-257.  The number returned is start_ind -
    ind, where ind is 0 after a full move. *)
Definition move_right_by_entries (nd other : node) (nentries : nat) : res (node * node * nat) :=
  let todo := Nat.min nentries (count nd) in
  if (todo =? 0)%nat then Ok (nd, other, 0%nat)
  else
    let start := (count nd - 1)%nat in
    bind (move_entries_loop nd other start todo)
      (fun x => let '(other, ind) := x in
        let '(nd, other) := move_edge nd other in
        let '(s, ret) := match ind with
                         | None => (0%nat, start)
                         | Some i => (S i, (start - i)%nat)
                         end in
        bind (remove nd s start) (fun nd => Ok (nd, other, ret))).

(** The edge goes along when the last entry was copied, 333-336, 359-362. *)
Definition copy_edge (nd other : node) (upto : nat) : node :=
  match n_edge other with
  | Some e => if (upto =? count other)%nat then with_recs nd (n_avail nd) (n_recs nd) (Some e)
              else nd
  | None => nd
  end.

(** copy_by_size, 312-338; [l]: the entries of the other node still to see. *)
Fixpoint copy_size_loop (nd other : node) (l : list rec) (size : N) (n : nat)
  : res (node * nat) :=
  match l with
  | [] => Ok (nd, n)
  | r :: l' =>
      if size <? ksize kd r + vsize kd r + rec_size kd then Ok (nd, n)
      else
        bind (insert nd (count nd) (key_at other r) (val_at other r))
          (fun nd => copy_size_loop nd other l'
             (size - (ksize kd r + vsize kd r + rec_size kd)) (S n))
  end.
Definition copy_by_size (nd other : node) (start : nat) (size : N) : res (node * nat) :=
  bind (copy_size_loop nd other (skipn start (n_recs other)) size 0)
    (fun x => let '(nd, n) := x in Ok (copy_edge nd other (start + n), n)).

(** copy_by_entries, 340-364. *)
Fixpoint copy_entries_loop (nd other : node) (l : list rec) : res node :=
  match l with
  | [] => Ok nd
  | r :: l' =>
      bind (insert nd (count nd) (key_at other r) (val_at other r))
        (fun nd => copy_entries_loop nd other l')
  end.
Definition copy_by_entries (nd other : node) (start nentries : nat) : res (node * nat) :=
  if (count other <? start)%nat then Stop Bad
  else
    let n := Nat.min nentries (count other - start) in
    bind (copy_entries_loop nd other (firstn n (skipn start (n_recs other))))
      (fun nd => Ok (copy_edge nd other (start + n), n)).

End Kind.
