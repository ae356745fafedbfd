(** Point operations of several threads on one B-tree: the lock protocol of
    /repo/src/include/homestore/btree/btree.ipp 82-235 (put, get, remove),
    detail/btree_get_impl.ipp 19-63, detail/btree_mutate_impl.ipp 33-160,
    183-290, detail/btree_remove_impl.ipp 21-248, 256-644 and
    detail/btree_node_mgr.ipp 52-210.

    One step of a thread is a stretch of code between two lock operations: what
    a step reads or writes it has locked, so that nobody sees half a step.  How
    full nodes are is left open: any thread with an update may find that a child
    is to be split or merged, with any distribution of the entries.

    Not modelled: range operations and queries, failing reads and writes, the
    index's own reasons to fail a lock (cp mismatch), the links between
    siblings.  A node is named by the object in memory, which is never taken for
    another node while somebody has a pointer to it. *)
From Coq Require Import ZArith List Bool Arith.
Import ListNotations.
Local Open Scope Z_scope.

(** ** Nodes *)

(** A bound: a key, or None for the edge of an interior node. *)
Notation ext := (option Z).
(** An entry: key and value of a leaf, or bound and child of an interior node. *)
Notation ent := (ext * Z)%type.
Record node := Nd { lvl : nat; ents : list ent }.

(** BtreeNode::find in an interior node: the first entry not below the key. *)
Definition ble (k : Z) (b : ext) : bool := match b with Some z => k <=? z | None => true end.
Definition pick (k : Z) (l : list ent) : option ent := List.find (fun e => ble k (fst e)) l.
(** In a leaf: the entry of the key. *)
Definition is_key (k : Z) (e : ent) : bool := match fst e with Some z => z =? k | None => false end.
Definition look (k : Z) (l : list ent) : option Z := option_map snd (List.find (is_key k) l).

Fixpoint ins (k v : Z) (l : list ent) : list ent :=
  match l with
  | [] => [(Some k, v)]
  | (b, w) :: t =>
      match b with
      | Some z => if z =? k then (Some k, v) :: t else if k <? z then (Some k, v) :: l else (b, w) :: ins k v t
      | None => (Some k, v) :: l
      end
  end.
Definition del (k : Z) (l : list ent) : list ent := filter (fun e => negb (is_key k e)) l.

(** ** Operations *)

Inductive put_type := Insert | Update | Upsert.
Inductive op := Get (k : Z) | Put (t : put_type) (k v : Z) | Remove (k : Z).
Definition key (o : op) : Z := match o with Get k | Put _ k _ | Remove k => k end.
Definition is_get (o : op) : bool := match o with Get _ => true | _ => false end.
(** success with the value found or replaced; already_exists; not_found. *)
Inductive res := Success (old : option Z) | Exists (old : Z) | NotFound.

(** VariantNode::put, BtreeNode::find, remove_one on a leaf; whether the node
    changed (its generation then grows). *)
Definition leaf_op (o : op) (l : list ent) : list ent * res * bool :=
  match o with
  | Get k => (l, match look k l with Some v => Success (Some v) | None => NotFound end, false)
  | Put t k v =>
      match t, look k l with
      | Insert, Some w => (l, Exists w, false)
      | Update, None => (l, NotFound, false)
      | _, w => (ins k v l, Success w, true)
      end
  | Remove k =>
      match look k l with
      | Some w => (del k l, Success (Some w), true)
      | None => (l, NotFound, false)
      end
  end.

(** ** Threads *)

Inductive mode := R | W.

Inductive pc :=
| Idle
| Start (o : op) (m : mode)                     (* m_btree_lock shared; next: the root *)
| At (o : op) (n : Z) (m : mode)                (* holds node n *)
| Both (o : op) (n : Z) (m : mode) (c : Z) (mc : mode)   (* parent and child *)
| Up (o : op) (n c : Z) (gn gc : nat)           (* upgrade_node_locks: both given up *)
| Up1 (o : op) (n c : Z) (gn gc : nat)          (* parent write locked *)
| Ready (o : op) (n c : Z) (l todo : list Z)    (* both write locked and unchanged; siblings l too *)
| RootEx (o : op) (m : mode)                    (* waits for m_btree_lock exclusively *)
| Done (o : op) (r : res).

Record st := St {
  h : Z -> node; root : Z; next : Z; gen : Z -> nat; dead : Z -> bool; thr : list pc }.

(** What a thread has locked. *)
Definition holds (p : pc) : list (Z * mode) :=
  match p with
  | At _ n m => [(n, m)]
  | Both _ n m c mc => [(n, m); (c, mc)]
  | Up1 _ n _ _ _ => [(n, W)]
  | Ready _ n c l _ => (n, W) :: (c, W) :: map (fun x => (x, W)) l
  | _ => []
  end.
Definition compat (a b : mode) : bool := match a, b with R, R => true | _, _ => false end.
Definition holds_shared (p : pc) : bool :=
  match p with Idle | RootEx _ _ | Done _ _ => false | _ => true end.

Definition thr_at (s : st) (i : nat) : pc := nth i (thr s) Idle.
Definition others (s : st) (i : nat) : list pc :=
  map snd (filter (fun p => negb (Nat.eqb (fst p) i)) (combine (seq 0 (length (thr s))) (thr s))).
(** The lock of node n is granted in mode m. *)
Definition free (s : st) (i : nat) (n : Z) (m : mode) : bool :=
  forallb (fun p => forallb (fun q => negb (fst q =? n) || compat m (snd q)) (holds p)) (others s i).

Fixpoint upd {A} (i : nat) (x : A) (l : list A) : list A :=
  match i, l with
  | _, [] => []
  | O, _ :: t => x :: t
  | S i, y :: t => y :: upd i x t
  end.
Definition goto (s : st) (i : nat) (p : pc) : st :=
  St (h s) (root s) (next s) (gen s) (dead s) (upd i p (thr s)).

(** get_child_and_lock_node, read_and_lock_node 65: the mode depends on the child's
    level, read before it is locked; it never changes. *)
Definition child_mode (o : op) (l : nat) : mode := if is_get o then R else match l with O => W | _ => R end.

(** ** Splits and merges *)

Definition before (c : Z) : list ent -> list ent :=
  fix f l := match l with [] => [] | e :: t => if snd e =? c then [] else e :: f t end.
Definition from (c : Z) : list ent -> list ent :=
  fix f l := match l with [] => [] | e :: t => if snd e =? c then l else f t end.
Definition lastb (l : list ent) : ext := fst (last l (None, 0)).

(** The keys the parent gets: the last key of each child but the last, which
    keeps the key it had (split_node 262-263; the edge and the last key in
    merge_nodes 555-570, 577-583) or gets its own last key (merge_nodes 564, 575;
    none if it is empty). *)
Fixpoint bounds (z : ext) (parts : list (list ent)) : list ext :=
  match parts with
  | [] => []
  | [_] => [z]
  | x :: t => lastb x :: bounds z t
  end.

Definition ent_eq_dec : forall a b : ent, {a = b} + {a <> b}.
Proof. decide equality; [apply Z.eq_dec|decide equality; apply Z.eq_dec]. Defined.

Fixpoint ids (i : Z) (n : nat) : list Z := match n with O => [] | S n => i :: ids (i + 1) n end.

Definition parts_ok (parts : list (list ent)) : bool :=
  match parts with
  | [] => false
  | [_] => true
  | _ => forallb (fun x => match x with [] => false | _ => true end) parts
  end.

Definition content (h : Z -> node) (l : list Z) : list ent := concat (map (fun c => ents (h c)) l).

Definition assoc {A} (x : Z) (l : list (Z * A)) : option A :=
  option_map snd (List.find (fun p => fst p =? x) l).

(** The entries of c and the siblings l behind it go to c and new nodes. *)
Definition restructure (s : st) (n c : Z) (l : list Z) (parts : list (list ent)) (lower : bool) : option st :=
  let es := ents (h s n) in
  let a := before c es in
  let r := from c es in
  let old := firstn (S (length l)) r in
  let b := skipn (S (length l)) r in
  if (if list_eq_dec Z.eq_dec (map snd old) (c :: l) then true else false)
     && parts_ok parts
     && (if list_eq_dec ent_eq_dec (concat parts) (content (h s) (c :: l)) then true else false)
  then
    let z := if lower && negb (match b with [] => true | _ => false end)
             then match last parts [] with [] => fst (hd (None, 0) old) | x => lastb x end
             else lastb old in
    let news := c :: ids (next s) (length parts - 1) in
    let es' := a ++ combine (bounds z parts) news ++ b in
    Some (St
      (fun x => if x =? n then Nd (lvl (h s n)) es'
                else match assoc x (combine news parts) with
                     | Some p => Nd (lvl (h s c)) p
                     | None => h s x
                     end)
      (root s) (next s + Z.of_nat (length parts - 1))
      (fun x => if (x =? n) || (x =? c) then S (gen s x) else gen s x)
      (fun x => dead s x || existsb (Z.eqb x) l)
      (thr s))
  else None.

(** check_split_root 183-240: a new root above the old one, which is split. *)
Definition grow (s : st) (parts : list (list ent)) : option st :=
  let r := next s in
  restructure (St (fun x => if x =? r then Nd (S (lvl (h s (root s)))) [(None, root s)] else h s x)
                  r (r + 1) (gen s) (dead s) (thr s))
    r (root s) [] parts false.
(** check_collapse_root 178-248. *)
Definition collapse (s : st) : option st :=
  match lvl (h s (root s)), ents (h s (root s)) with
  | S _, [(None, c)] =>
      Some (St (h s) c (next s) (gen s) (fun x => dead s x || (x =? root s)) (thr s))
  | _, _ => None
  end.

(** ** Steps *)

(** What a thread decides where the model leaves it open. *)
Inductive choice :=
| Go                                              (* the next lock, or on without restructuring *)
| Invoke (o : op)
| Change                                          (* split or merge needed *)
| Siblings (q : nat)                              (* how many right siblings to lock *)
| Redo (parts : list (list ent)) (lower : bool)
| Grow (parts : list (list ent))
| Collapse.
Inductive event := Inv (i : nat) (o : op) | Lin (i : nat) (o : op) (r : res) | Ret (i : nat) (o : op) (r : res).

Definition set_leaf (s : st) (n : Z) (l : list ent) (changed : bool) : st :=
  St (fun x => if x =? n then Nd (lvl (h s n)) l else h s x) (root s) (next s)
     (fun x => if changed && (x =? n) then S (gen s x) else gen s x) (dead s) (thr s).

Definition step (s : st) (i : nat) (ch : choice) : option (st * list event) :=
  match thr_at s i, ch with
  | Idle, Invoke o => if (i <? length (thr s))%nat then Some (goto s i (Start o R), [Inv i o]) else None
  (* put 98, get 149, remove 173 *)
  | Start o m, Go => if free s i (root s) m then Some (goto s i (At o (root s) m), []) else None
  | At o n m, Go =>
      match lvl (h s n) with
      | O =>
          match is_get o, m with
          | false, R => Some (goto s i (Start o W), [])          (* put 117-121, remove 201-205 *)
          | _, _ =>
              let '(l, r, changed) := leaf_op o (ents (h s n)) in
              Some (goto (set_leaf s n l changed) i (Done o r), [Lin i o r])
          end
      | S _ =>
          match pick (key o) (ents (h s n)) with
          | Some (_, c) =>
              let mc := child_mode o (lvl (h s c)) in
              if free s i c mc then Some (goto s i (Both o n m c mc), []) else None
          | None => None
          end
      end
  (* put 102-115, remove 177-200 *)
  | At o n m, Change => if negb (is_get o) && (n =? root s) then Some (goto s i (RootEx o m), []) else None
  | Both o n m c mc, Go => Some (goto s i (At o c mc), [])
  | Both o n m c mc, Change =>
      if is_get o then None else Some (goto s i (Up o n c (gen s n) (gen s c)), [])
  | Up o n c gn gc, Go => if free s i n W then Some (goto s i (Up1 o n c gn gc), []) else None
  | Up1 o n c gn gc, Siblings q =>
      if free s i c W then
        if dead s n || negb (Nat.eqb gn (gen s n)) || dead s c || negb (Nat.eqb gc (gen s c)) then
          Some (goto s i (Start o R), [])
        else
          Some (goto s i (Ready o n c [] (map snd (firstn q (tl (from c (ents (h s n))))))), [])
      else None
  | Ready o n c l (t :: todo), Go =>
      if free s i t W then Some (goto s i (Ready o n c (l ++ [t]) todo), []) else None
  | Ready o n c l [], Go => Some (goto s i (At o c W), [])
  | Ready o n c l [], Redo parts lower =>
      match restructure s n c l parts lower with
      | Some s' => Some (goto s' i (At o n W), [])
      | None => None
      end
  | RootEx o m, ch =>
      if forallb (fun p => negb (holds_shared p)) (others s i) then
        match ch with
        | Go => Some (goto s i (Start o m), [])
        | Grow parts => option_map (fun s' => (goto s' i (Start o m), [])) (grow s parts)
        | Collapse => option_map (fun s' => (goto s' i (Start o m), [])) (collapse s)
        | _ => None
        end
      else None
  | Done o r, Go => Some (goto s i Idle, [Ret i o r])
  | _, _ => None
  end.

Fixpoint run (s : st) (l : list (nat * choice)) : option (st * list event) :=
  match l with
  | [] => Some (s, [])
  | (i, ch) :: l =>
      match step s i ch with
      | Some (s, e) => match run s l with Some (s, es) => Some (s, e ++ es) | None => None end
      | None => None
      end
  end.
