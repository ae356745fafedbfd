(** What a node of variable-size entries should be: a list of keys and values,
    an edge, and room counted in bytes.  Nothing here depends on how the node
    places its entries. *)
From Coq Require Import NArith List Bool Arith Sorting.Permutation.
From Verif Require Import VarNodeModel.
Import ListNotations.
Local Open Scope N_scope.

Notation ent := (bytes * bytes)%type.
Notation snode := (list ent * option bytes)%type.

(** Sorting for compact: a permutation with descending offsets. *)
Fixpoint desc (l : list (N * nat)) : Prop :=
  match l with
  | [] => True
  | x :: r => Forall (fun y => fst y <= fst x) r /\ desc r
  end.
Definition sorts (srt : list (N * nat) -> list (N * nat)) : Prop :=
  forall l, Permutation (srt l) l /\ desc (srt l).

Section Spec.
Context (kd : kind) (cap : N) (leaf : bool).

Definition esize (e : ent) : N := blen (fst e) + blen (snd e) + rec_size kd.
Definition used (l : list ent) : N := fold_right (fun e n => esize e + n) 0 l.

(** Key and value have the sizes the node format fixes. *)
Definition shape (k v : bytes) : Prop :=
  match kd with
  | VarKey vsz => blen v = vsz
  | VarValue ksz => blen k = ksz
  | VarObj => True
  end.

(** How many entries from the front of [l] go into [size] bytes. *)
Fixpoint prefix_in (l : list ent) (size : N) : nat :=
  match l with
  | [] => 0%nat
  | e :: r => if size <? esize e then 0%nat else S (prefix_in r (size - esize e))
  end.

Inductive op :=
| Insert (a i : nat) (k v : bytes)
| Update (a i : nat) (k v : bytes)
| UpdateValue (a i : nat) (v : bytes)
| SetEdge (a : nat) (v : bytes)
| Remove (a s e : nat)
| RemoveToEdge (a s : nat)
| Clear (a : nat)
| MoveSize (a b : nat) (size : N)
| MoveEntries (a b n : nat)
| CopySize (a b start : nat) (size : N)     (* from b to a *)
| CopyEntries (a b start n : nat).

Definition sstate := nat -> snode.
Definition sset (s : sstate) (a : nat) (x : snode) : sstate :=
  fun i => if (i =? a)%nat then x else s i.

Definition split_off (x y : snode) (m : nat) : snode * snode :=
  let n := length (fst x) in
  let y' := skipn (n - m) (fst x) ++ fst y in
  let x' := firstn (n - m) (fst x) in
  if leaf || (length y' =? 0)%nat then ((x', snd x), (y', snd y))
  else ((x', None), (y', snd x)).

Definition append (x y : snode) (start n : nat) : snode :=
  (fst x ++ firstn n (skipn start (fst y)),
   match snd y with
   | Some e => if (start + n =? length (fst y))%nat then Some e else snd x
   | None => snd x
   end).

Definition size_moved (x : snode) (size : N) : nat :=
  Nat.min (prefix_in (rev (fst x)) size) (length (fst x) - 1).

Definition sstep (s : sstate) (o : op) : sstate * nat :=
  match o with
  | Insert a i k v =>
      let (l, e) := s a in (sset s a (firstn i l ++ (k, v) :: skipn i l, e), 0%nat)
  | Update a i k v =>
      let (l, e) := s a in (sset s a (firstn i l ++ (k, v) :: skipn (S i) l, e), 0%nat)
  | UpdateValue a i v =>
      let (l, e) := s a in
      (sset s a (firstn i l ++ (fst (nth i l ([], [])), v) :: skipn (S i) l, e), 0%nat)
  | SetEdge a v => (sset s a (fst (s a), Some v), 0%nat)
  | Remove a x y => let (l, e) := s a in (sset s a (firstn x l ++ skipn (S y) l, e), 0%nat)
  | RemoveToEdge a x =>
      let (l, e) := s a in
      (sset s a (firstn (x - 1) l, Some (snd (nth (x - 1) l ([], [])))), 0%nat)
  | Clear a => (sset s a ([], None), 0%nat)
  | MoveSize a b size =>
      let m := size_moved (s a) size in
      let (x, y) := split_off (s a) (s b) m in (sset (sset s a x) b y, m)
  | MoveEntries a b n =>
      let m := Nat.min n (length (fst (s a))) in
      if (m =? 0)%nat then (s, 0%nat)
      else let (x, y) := split_off (s a) (s b) m in (sset (sset s a x) b y, 0%nat)
  | CopySize a b start size =>
      let n := prefix_in (skipn start (fst (s b))) size in
      (sset s a (append (s a) (s b) start n), n)
  | CopyEntries a b start n =>
      let n := Nat.min n (length (fst (s b)) - start) in
      (sset s a (append (s a) (s b) start n), n)
  end.

(** An operation may be asked for: indices are there, and what results fits. *)
Definition legal (s : sstate) (o : op) : Prop :=
  match o with
  | Insert a i k v =>
      shape k v /\ (i <= length (fst (s a)))%nat /\ used (fst (s a)) + esize (k, v) <= cap
  | Update a i k v =>
      shape k v /\ (i < length (fst (s a)))%nat /\
      used (fst (s a)) + esize (k, v) <= cap + esize (nth i (fst (s a)) ([], []))
  | UpdateValue a i v =>
      let k := fst (nth i (fst (s a)) ([], [])) in
      shape k v /\ (i < length (fst (s a)))%nat /\
      used (fst (s a)) + esize (k, v) <= cap + esize (nth i (fst (s a)) ([], []))
  | SetEdge a v => leaf = false
  | Remove a x y => (x <= S y)%nat /\ (y < length (fst (s a)))%nat
  | RemoveToEdge a x => leaf = false /\ (1 <= x <= length (fst (s a)))%nat /\ snd (s a) <> None
  | Clear a => True
  | MoveSize a b size =>
      a <> b /\ fst (s a) <> [] /\
      used (fst (snd (split_off (s a) (s b) (size_moved (s a) size)))) <= cap
  | MoveEntries a b n =>
      a <> b /\ used (fst (snd (split_off (s a) (s b) (Nat.min n (length (fst (s a))))))) <= cap
  | CopySize a b start size =>
      a <> b /\
      used (fst (append (s a) (s b) start (prefix_in (skipn start (fst (s b))) size))) <= cap
  | CopyEntries a b start n =>
      a <> b /\ (start <= length (fst (s b)))%nat /\
      used (fst (append (s a) (s b) start (Nat.min n (length (fst (s b)) - start)))) <= cap
  end.

Fixpoint legal_run (s : sstate) (ops : list op) : Prop :=
  match ops with
  | [] => True
  | o :: r => legal s o /\ legal_run (fst (sstep s o)) r
  end.

Fixpoint srun (s : sstate) (ops : list op) : sstate * list nat :=
  match ops with
  | [] => (s, [])
  | o :: r => let (s', x) := sstep s o in let (s'', xs) := srun s' r in (s'', x :: xs)
  end.

End Spec.

(** The same operations on the nodes of the model. *)
Section Run.
Context (kd : kind) (srt : list (N * nat) -> list (N * nat)).

Definition state := nat -> node.
Definition set (s : state) (a : nat) (x : node) : state := fun i => if (i =? a)%nat then x else s i.

Definition step (s : state) (o : op) : res (state * nat) :=
  match o with
  | Insert a i k v => bind (insert kd srt (s a) i k v) (fun x => Ok (set s a x, 0%nat))
  | Update a i k v => bind (update kd srt (s a) i k v) (fun x => Ok (set s a x, 0%nat))
  | UpdateValue a i v => bind (update_value kd srt (s a) i v) (fun x => Ok (set s a x, 0%nat))
  | SetEdge a v => bind (update_value kd srt (s a) (count (s a)) v) (fun x => Ok (set s a x, 0%nat))
  | Remove a x y => bind (remove kd (s a) x y) (fun x => Ok (set s a x, 0%nat))
  | RemoveToEdge a x => bind (remove kd (s a) x (count (s a))) (fun x => Ok (set s a x, 0%nat))
  | Clear a => Ok (set s a (remove_all (s a)), 0%nat)
  | MoveSize a b size =>
      bind (move_right_by_size kd srt (s a) (s b) size)
        (fun r => let '(x, y, n) := r in Ok (set (set s a x) b y, n))
  | MoveEntries a b n =>
      bind (move_right_by_entries kd srt (s a) (s b) n)
        (fun r => let '(x, y, _) := r in Ok (set (set s a x) b y, 0%nat))
  | CopySize a b start size =>
      bind (copy_by_size kd srt (s a) (s b) start size)
        (fun r => let '(x, n) := r in Ok (set s a x, n))
  | CopyEntries a b start n =>
      bind (copy_by_entries kd srt (s a) (s b) start n)
        (fun r => let '(x, n) := r in Ok (set s a x, n))
  end.

Fixpoint run (s : state) (ops : list op) : res (state * list nat) :=
  match ops with
  | [] => Ok (s, [])
  | o :: r =>
      bind (step s o) (fun y => let '(s', x) := y in
        bind (run s' r) (fun z => let '(s'', xs) := z in Ok (s'', x :: xs)))
  end.

End Run.
