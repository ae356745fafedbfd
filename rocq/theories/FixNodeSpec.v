(** What a node of entries of one size should be: a list of keys and values, an
    edge, and a number of entries it can take.  Nothing here depends on where
    the node has its bytes. *)
From Coq Require Import NArith List Bool Arith.
From Verif Require Import FixNodeModel.
Import ListNotations.

Notation ent := (bytes * bytes)%type.
Notation snode := (list ent * option bytes)%type.

Section Spec.
(** Sizes of keys and values; entries that go into a node. *)
Context (ks vs cap : nat) (leaf : bool).

Definition shape (k v : bytes) : Prop := length k = ks /\ length v = vs.

Inductive op :=
| Insert (a i : nat) (k v : bytes)
| Update (a i : nat) (k v : bytes)
| UpdateValue (a i : nat) (v : bytes)
| SetEdge (a : nat) (v : bytes)
| Remove (a s e : nat)
| RemoveToEdge (a s : nat)
| Clear (a : nat)
| MoveEntries (a b n : nat)
| MoveSize (a b size : nat)
| CopyEntries (a b start n : nat)           (* from b to a *)
| CopySize (a b start size : nat).

Definition sstate := nat -> snode.
Definition sset (s : sstate) (a : nat) (x : snode) : sstate :=
  fun i => if i =? a then x else s i.

(** The last [m] entries of [x] go before those of [y]; an edge goes along. *)
Definition split_off (x y : snode) (m : nat) : snode * snode :=
  let n := length (fst x) in
  ((firstn (n - m) (fst x), None),
   (skipn (n - m) (fst x) ++ fst y, match snd x with Some e => Some e | None => snd y end)).

(** [m] entries of [y] from [start] on go after those of [x]; the edge goes
    along with the last one. *)
Definition append (x y : snode) (start m : nat) : snode :=
  (fst x ++ firstn m (skipn start (fst y)),
   match snd y with
   | Some e => if start + m =? length (fst y) then Some e else snd x
   | None => snd x
   end).

Definition room (x : snode) : nat := cap - length (fst x).
Definition moved (x y : snode) (n : nat) : nat := Nat.min (Nat.min n (length (fst x))) (room y).
Definition copied (x y : snode) (start n : nat) : nat :=
  Nat.min (Nat.min n (length (fst y) - start)) (room x).

(** The new state and what is returned. *)
Definition sstep (s : sstate) (o : op) : sstate * nat :=
  match o with
  | Insert a i k v =>
      let (l, e) := s a in (sset s a (firstn i l ++ (k, v) :: skipn i l, e), 0)
  | Update a i k v =>
      let (l, e) := s a in (sset s a (firstn i l ++ (k, v) :: skipn (S i) l, e), 0)
  | UpdateValue a i v =>
      let (l, e) := s a in
      (sset s a (firstn i l ++ (fst (nth i l ([], [])), v) :: skipn (S i) l, e), 0)
  | SetEdge a v => (sset s a (fst (s a), Some v), 0)
  | Remove a x y => let (l, e) := s a in (sset s a (firstn x l ++ skipn (S y) l, e), 0)
  | RemoveToEdge a x =>
      let (l, e) := s a in
      (sset s a (firstn (x - 1) l, Some (snd (nth (x - 1) l ([], [])))), 0)
  | Clear a => (sset s a ([], None), 0)
  | MoveEntries a b n =>
      let m := moved (s a) (s b) n in
      let (x, y) := split_off (s a) (s b) m in (sset (sset s a x) b y, m)
  | MoveSize a b size =>
      let m := moved (s a) (s b) (size / (ks + vs)) in
      let (x, y) := split_off (s a) (s b) m in (sset (sset s a x) b y, (ks + vs) * m)
  | CopyEntries a b start n =>
      let m := copied (s a) (s b) start n in (sset s a (append (s a) (s b) start m), m)
  | CopySize a b start size =>
      let m := copied (s a) (s b) start (size / (ks + vs)) in
      (sset s a (append (s a) (s b) start m), m)
  end.

(** An operation may be asked for: indices are there, keys and values have
    their size, and an inserted entry fits. *)
Definition legal (s : sstate) (o : op) : Prop :=
  match o with
  | Insert a i k v => shape k v /\ i <= length (fst (s a)) /\ length (fst (s a)) < cap
  | Update a i k v => shape k v /\ i < length (fst (s a))
  | UpdateValue a i v => length v = vs /\ i < length (fst (s a))
  | SetEdge a v => leaf = false
  | Remove a x y => x <= S y /\ y < length (fst (s a))
  | RemoveToEdge a x => leaf = false /\ 1 <= x <= length (fst (s a)) /\ snd (s a) <> None
  | Clear a => True
  | MoveEntries a b _ | MoveSize a b _ => a <> b
  | CopyEntries a b start _ | CopySize a b start _ => a <> b /\ start <= length (fst (s b))
  end.

Fixpoint legal_run (s : sstate) (ops : list op) : Prop :=
  match ops with
  | [] => True
  | o :: r => legal s o /\ legal_run (fst (sstep s o)) r
  end.

Fixpoint srun (s : sstate) (ops : list op) : sstate * list nat :=
  match ops with
  | [] => (s, [])
  | o :: r => let (s', x) := sstep s o in let (s'', xs) := srun s' r in (s'', x :: xs)
  end.

End Spec.

(** The same operations on the nodes of the model. *)
Section Run.
Context (ks vs : nat).

Definition state := nat -> node.
Definition set (s : state) (a : nat) (x : node) : state := fun i => if i =? a then x else s i.

Definition put1 (s : state) (a : nat) (x : res node) : res (state * nat) :=
  bind x (fun x => Ok (set s a x, 0)).

Definition step (s : state) (o : op) : res (state * nat) :=
  match o with
  | Insert a i k v => put1 s a (insert ks vs (s a) i k v)
  | Update a i k v => put1 s a (update ks vs (s a) i k v)
  | UpdateValue a i v => put1 s a (update_value ks vs (s a) i v)
  | SetEdge a v => put1 s a (update_value ks vs (s a) (f_n (s a)) v)
  | Remove a x y => put1 s a (remove ks vs (s a) x y)
  | RemoveToEdge a x => put1 s a (remove ks vs (s a) x (f_n (s a)))
  | Clear a => Ok (set s a (remove_all (s a)), 0)
  | MoveEntries a b n =>
      bind (move_right_by_entries ks vs (s a) (s b) n)
        (fun r => let '(x, y, n) := r in Ok (set (set s a x) b y, n))
  | MoveSize a b size =>
      bind (move_right_by_size ks vs (s a) (s b) size)
        (fun r => let '(x, y, n) := r in Ok (set (set s a x) b y, n))
  | CopyEntries a b start n =>
      bind (copy_by_entries ks vs (s a) (s b) start n)
        (fun r => let '(x, n) := r in Ok (set s a x, n))
  | CopySize a b start size =>
      bind (copy_by_size ks vs (s a) (s b) start size)
        (fun r => let '(x, n) := r in Ok (set s a x, n))
  end.

Fixpoint run (s : state) (ops : list op) : res (state * list nat) :=
  match ops with
  | [] => Ok (s, [])
  | o :: r =>
      bind (step s o) (fun y => let '(s', x) := y in
        bind (run s' r) (fun z => let '(s'', xs) := z in Ok (s'', x :: xs)))
  end.

End Run.
