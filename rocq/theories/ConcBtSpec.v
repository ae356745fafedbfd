(** What concurrent point operations on a B-tree should do. *)
From Coq Require Import ZArith List Bool Arith.
From Verif Require Import ConcBtModel.
Import ListNotations.
Local Open Scope Z_scope.

(** ** A sequential map *)
Definition kv := Z -> option Z.
Definition set (k : Z) (v : option Z) (m : kv) : kv := fun x => if x =? k then v else m x.
Definition apply (o : op) (m : kv) : kv * res :=
  match o with
  | Get k => (m, match m k with Some v => Success (Some v) | None => NotFound end)
  | Put Insert k v => match m k with Some w => (m, Exists w) | None => (set k (Some v) m, Success None) end
  | Put Update k v => match m k with Some w => (set k (Some v) m, Success (Some w)) | None => (m, NotFound) end
  | Put Upsert k v => (set k (Some v) m, Success (m k))
  | Remove k => match m k with Some w => (set k None m, Success (Some w)) | None => (m, NotFound) end
  end.

(** Operations one after the other, with the answers they must give. *)
Inductive sequence : kv -> list (op * res) -> kv -> Prop :=
| Q0 : forall m m', (forall k, m k = m' k) -> sequence m [] m'
| Q1 : forall m o l m', sequence (fst (apply o m)) l m' -> sequence m ((o, snd (apply o m)) :: l) m'.

(** ** Histories *)
Definition effects (es : list event) : list (op * res) :=
  flat_map (fun e => match e with Lin _ o r => [(o, r)] | _ => [] end) es.

(** Where a thread is: between calls, in one before its effect, after it. *)
Inductive phase := Out | Called (o : op) | Took (o : op) (r : res).
(** Every call takes effect once, between call and return, and returns the
    answer it got then. *)
Inductive history (i : nat) : phase -> list event -> Prop :=
| H0 : history i Out []
| HInv : forall es o, history i Out es -> history i (Called o) (es ++ [Inv i o])
| HLin : forall es o r, history i (Called o) es -> history i (Took o r) (es ++ [Lin i o r])
| HRet : forall es o r, history i (Took o r) es -> history i Out (es ++ [Ret i o r])
| HOther : forall p es e, history i p es ->
    (match e with Inv j _ | Lin j _ _ | Ret j _ _ => j end) <> i -> history i p (es ++ [e]).

(** ** The tree *)

(** The node d levels below the root on the way to a key, and the value there. *)
Fixpoint walk (h : Z -> node) (r k : Z) (d : nat) : option Z :=
  match d with
  | O => Some r
  | S d =>
      match walk h r k d with
      | Some n => option_map snd (pick k (ents (h n)))
      | None => None
      end
  end.
Definition value (s : st) : kv := fun k =>
  match walk (h s) (root s) k (lvl (h s (root s))) with
  | Some n => look k (ents (h s n))
  | None => None
  end.

Inductive reach (h : Z -> node) (r : Z) : nat -> Z -> Prop :=
| R0 : reach h r 0 r
| RS : forall d p b c, reach h r d p -> lvl (h p) <> O -> In (b, c) (ents (h p)) -> reach h r (S d) c.

Definition blt (a b : ext) : Prop :=
  match a, b with Some x, Some y => x < y | Some _, None => True | None, _ => False end.
Fixpoint asc (l : list ent) : Prop :=
  match l with
  | [] => True
  | e :: t => (forall x, In x t -> blt (fst e) (fst x)) /\ asc t
  end.

(** A B-tree: levels count down; keys ascend; every key in a node is on the
    way from the root; every node has one parent and the last bound the parent
    has for it. *)
Record wf (s : st) : Prop := {
  wf_lvl : forall d n, reach (h s) (root s) d n -> (lvl (h s n) + d = lvl (h s (root s)))%nat;
  wf_asc : forall d n, reach (h s) (root s) d n -> asc (ents (h s n));
  wf_some : forall d n, reach (h s) (root s) d n -> lvl (h s n) <> O -> ents (h s n) <> [];
  wf_nodup : forall d n, reach (h s) (root s) d n -> lvl (h s n) <> O -> NoDup (map snd (ents (h s n)));
  wf_parent : forall d p q b b' c, reach (h s) (root s) d p -> reach (h s) (root s) d q ->
    lvl (h s p) <> O -> lvl (h s q) <> O -> In (b, c) (ents (h s p)) -> In (b', c) (ents (h s q)) -> p = q;
  wf_last : forall d p b c, reach (h s) (root s) d p -> lvl (h s p) <> O -> In (b, c) (ents (h s p)) ->
    lvl (h s c) <> O -> lastb (ents (h s c)) = b;
  wf_root : lvl (h s (root s)) <> O -> lastb (ents (h s (root s))) = None;
  wf_key : forall d n z v, reach (h s) (root s) d n -> In (Some z, v) (ents (h s n)) ->
    walk (h s) (root s) z d = Some n;
  wf_leaf : forall d n b v, reach (h s) (root s) d n -> lvl (h s n) = O -> In (b, v) (ents (h s n)) -> b <> None;
  wf_next : forall d n, reach (h s) (root s) d n -> n < next s;
  wf_dead : forall d n, reach (h s) (root s) d n -> dead s n = false
}.

(** A tree of one empty leaf, for threads that have not begun. *)
Definition start (n : nat) : st :=
  St (fun _ => Nd 0 []) 0 1 (fun _ => O) (fun _ => false) (repeat Idle n).
Definition tree (s : st) : Prop := wf s /\ forall x, next s <= x -> dead s x = false.
Definition idle (s : st) : Prop := forall i, thr_at s i = Idle.
(** Threads that have a node locked at the same time only read it. *)
Definition exclusive (s : st) : Prop := forall i j n m m', i <> j ->
  In (n, m) (holds (thr_at s i)) -> In (n, m') (holds (thr_at s j)) -> m = R /\ m' = R.
