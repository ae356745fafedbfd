(** * What is expected of the index write-back cache. *)
From Coq Require Import ZArith List Bool Arith.
From Verif Require Import WbModel.
Import ListNotations.

(** ** Legal use by the B-tree

    [lvl] is the level of a node in the tree (a table's meta buffer is above its
    nodes), [pos] its place from left to right within the level, [isnew] whether
    the node is allocated in this CP.  A split takes the right half into a new
    node; a merge frees nodes to the right of the leftmost one and puts new ones
    there.  A node allocated in this CP is used as parent or child only after it
    came out of a split or merge, or was made root: [known]. *)
Section Legal.
Variable isnew : nat -> bool.
Variable lvl : nat -> nat.
Variable pos : nat -> Z.

Definition known (intro : list nat) (b : nat) : bool :=
  negb (isnew b) || existsb (Nat.eqb b) intro.

Fixpoint nodupb (l : list nat) : bool :=
  match l with [] => true | x :: r => negb (existsb (Nat.eqb x) r) && nodupb r end.

Definition legal_op (intro : list nat) (o : wop) : bool :=
  match o with
  | OWrite _ => true
  | OFree _ => true
  | ORoot m r => negb (isnew m) && Nat.ltb (lvl r) (lvl m)
  | OTransact p c news freeds =>
      known intro p && known intro c && Nat.ltb (lvl c) (lvl p) && nodupb news &&
      forallb (fun n => isnew n && negb (existsb (Nat.eqb n) intro) &&
                        Nat.eqb (lvl n) (lvl c) && Z.ltb (pos c) (pos n)) news &&
      forallb (fun f => Nat.eqb (lvl f) (lvl c) && Z.ltb (pos c) (pos f)) freeds
  end.

Definition intro_op (intro : list nat) (o : wop) : list nat :=
  match o with
  | OTransact _ _ news _ => news ++ intro
  | ORoot _ r => r :: intro
  | _ => intro
  end.

Fixpoint legal (intro : list nat) (l : list wop) : bool :=
  match l with
  | [] => true
  | o :: l' => legal_op intro o && legal (intro_op intro o) l'
  end.
End Legal.

(** The nodes (and meta buffers) written in a CP. *)
Definition written_op (o : wop) : list nat :=
  match o with
  | OWrite b => [b]
  | OTransact p c news _ => news ++ [c; p]
  | ORoot m _ => [m]
  | OFree _ => []
  end.
Definition written (l : list wop) : list nat := flat_map written_op l.

(** A node made root is also written in the CP. *)
Definition roots_written (l : list wop) : Prop :=
  forall m r, In (ORoot m r) l -> In r (written l).

(** ** The waits-for relation *)
Definition above (w : wb) (d : nat) : option nat := b_up (w_buf w d).

Fixpoint climb (w : wb) (n : nat) (b : nat) : option nat :=
  match n with
  | O => Some b
  | S n' => match above w b with Some u => climb w n' u | None => None end
  end.

(** ** The flush, in terms of its log (oldest first) *)
Definition history (s : fstate) : list fev := rev (f_log s).

(** [d] is on disk before the write of [u] begins. *)
Definition done_first (h : list fev) (d u : nat) : Prop :=
  forall h1 h2, h = h1 ++ Issue u :: h2 -> In (Done d) h1.

Definition issues (h : list fev) : list nat :=
  flat_map (fun e => match e with Issue b => [b] | Done _ => [] end) h.
Definition dones (h : list fev) : list nat :=
  flat_map (fun e => match e with Done b => [b] | Issue _ => [] end) h.

(** Whether an operation places node [x] below another one, and whether it
    merges [x] away. *)
Definition placed_by (x : nat) (o : wop) : bool :=
  match o with
  | OTransact _ c news freeds =>
      Nat.eqb c x || existsb (Nat.eqb x) news || existsb (Nat.eqb x) freeds
  | ORoot _ r => Nat.eqb r x
  | _ => false
  end.
Definition merged_by (x : nat) (o : wop) : bool :=
  match o with OTransact _ _ _ freeds => existsb (Nat.eqb x) freeds | _ => false end.

(** The flush has nothing it can do: no buffer chosen and none being written. *)
Definition stuck (one : bool) (s : fstate) : Prop :=
  forall b, fstep one s (EIssue b) = None /\ fstep one s (EDone b) = None.

(** A fiber asks for at least one buffer (get_dirty_buf_qd). *)
Definition qd_ok (l : list ev) : Prop := forall q, In (EStart q) l -> (1 <= q)%nat.

(** No CP changes the root while the CP before it is being flushed.
    [fl]: a flush is under way. *)
Fixpoint quiet (fl : bool) (l : list sbev) : bool :=
  match l with
  | [] => true
  | SRoot _ :: l' => negb fl && quiet fl l'
  | SSwitch :: l' => quiet true l'
  | SEnd :: l' => quiet false l'
  | _ :: l' => quiet fl l'
  end.
