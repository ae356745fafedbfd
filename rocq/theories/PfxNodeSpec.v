(** What users of prefix nodes rely on: a node is a list of entries; every
    answer says what happened to it. *)
From Coq Require Import NArith ZArith List Bool Arith.
From Verif Require Import Base PfxNodeModel.
Import ListNotations.
Local Open Scope N_scope.

Notation snode := (list (Z * Z)).
Definition sstate := nat -> snode.
Definition sset (s : sstate) (a : nat) (x : snode) : sstate := fun i => if (i =? a)%nat then x else s i.

Inductive op :=
| Insert (a i : nat) (k v : Z)
| Update (a i : nat) (k v : Z)
| Remove (a i : nat)
| MultiRemove (a : nat) (r : krange) (flt : option (Z -> Z -> bool))
| MultiPut (a : nat) (r : krange) (first v : Z) (kd : pkind) (flt : option (Z -> Z -> Z -> decision))
| MoveTo (a b : nat) (by_size : bool) (limit : N)  (* b: a new node *)
| CopySize (a b start : nat) (size : N)
| CopyEntries (a b start n : nat)
| Clear (a : nat).

Inductive ans := Yes | No | Upto (k : Z) | Num (n : nat).

(** A key is in the range. *)
Definition within (r : krange) (k : Z) : bool :=
  (if r_sincl r then r_start r <=? k else r_start r <? k)%Z &&
  (if r_eincl r then k <=? r_end r else k <? r_end r)%Z.

(** The keys from [k] on, [n] of them. *)
Fixpoint keys_from (k : Z) (n : nat) : list Z :=
  match n with O => [] | S n' => k :: keys_from (k + 1) n' end.
Definition keys_of (r : krange) : list Z :=
  filter (within r) (keys_from (r_start r) (Z.to_nat (r_end r - r_start r + 1))).

Section Spec.
Context (sh : Z -> Z -> Z).

(** An entry put into its place. *)
Fixpoint put_sorted (k v : Z) (l : snode) : snode :=
  match l with
  | [] => [(k, v)]
  | e :: l' => if (k <? fst e)%Z then (k, v) :: l
               else if (k =? fst e)%Z then (k, v) :: l' else e :: put_sorted k v l'
  end.
Definition get (l : snode) (k : Z) : option Z :=
  option_map snd (find (fun e => (fst e =? k)%Z) l).
Definition drop (l : snode) (k : Z) : snode := filter (fun e => negb (fst e =? k)%Z) l.

(** One key of a range put. *)
Definition sput (kd : pkind) (flt : option (Z -> Z -> Z -> decision)) (first v : Z) (l : snode) (k : Z)
  : snode :=
  match get l k with
  | Some old =>
      match kd with
      | Insert_ => l
      | _ => match match flt with Some f => f k old v | None => Replace end with
             | Keep => l
             | Replace => put_sorted k (sh v (k - first)%Z) l
             | Drop => drop l k
             end
      end
  | None => match kd with Update_ => l | _ => put_sorted k (sh v (k - first)%Z) l end
  end.

Definition gone (r : krange) (flt : option (Z -> Z -> bool)) (e : Z * Z) : bool :=
  within r (fst e) && match flt with None => true | Some f => f (fst e) (snd e) end.

(** The state after an operation with the given answer; None: not an answer. *)
Definition sstep (s : sstate) (o : op) (x : ans) : option sstate :=
  match o, x with
  | Insert a i k v, Yes => Some (sset s a (firstn i (s a) ++ (k, v) :: skipn i (s a)))
  | Insert a i k v, No => Some s
  | Update a i k v, Yes => Some (sset s a (firstn i (s a) ++ (k, v) :: skipn (S i) (s a)))
  | Remove a i, Yes => Some (sset s a (firstn i (s a) ++ skipn (S i) (s a)))
  | MultiRemove a r flt, Num n =>
      if (n =? length (filter (gone r flt) (s a)))%nat
      then Some (sset s a (filter (fun e => negb (gone r flt e)) (s a))) else None
  | MultiPut a r first v kd flt, Yes =>
      Some (sset s a (fold_left (sput kd flt first v) (keys_of r) (s a)))
  | MultiPut a r first v kd flt, No => Some s
  | MultiPut a r first v kd flt, Upto k =>
      if (r_start r <? k)%Z
      then Some (sset s a (fold_left (sput kd flt first v) (filter (fun x => (x <? k)%Z) (keys_of r)) (s a)))
      else None
  | MoveTo a b by_size limit, Num n =>
      if (n <=? length (s a))%nat &&
         (by_size || (n =? Nat.min (N.to_nat limit) (length (s a))))%nat
      then Some (sset (sset s a (firstn (length (s a) - n) (s a))) b (skipn (length (s a) - n) (s a)))
      else None
  | CopySize a b start size, Num n =>
      if (n <=? length (skipn start (s b)))%nat
      then Some (sset s a (s a ++ firstn n (skipn start (s b)))) else None
  | CopyEntries a b start n, Num m =>
      if (m =? Nat.min n (length (skipn start (s b))))%nat
      then Some (sset s a (s a ++ firstn n (skipn start (s b)))) else None
  | Clear a, Yes => Some (sset s a [])
  | _, _ => None
  end.

Fixpoint sruns (s : sstate) (ops : list op) (xs : list ans) : option sstate :=
  match ops, xs with
  | [], [] => Some s
  | o :: ops, x :: xs => match sstep s o x with Some s => sruns s ops xs | None => None end
  | _, _ => None
  end.
End Spec.

(** ** Histories of the model *)

Definition state := nat -> node.
Definition set (s : state) (a : nat) (x : node) : state := fun i => if (i =? a)%nat then x else s i.

Section Run.
Context (c : codec) (g : geom).

Definition step (s : state) (o : op) : res (state * ans) :=
  match o with
  | Insert a i k v =>
      bind (insert c g (s a) i k v) (fun x => Ok (set s a (fst x), if snd x then Yes else No))
  | Update a i k v => bind (update c g (s a) i k v) (fun x => Ok (set s a x, Yes))
  | Remove a i => bind (remove (s a) i) (fun x => Ok (set s a x, Yes))
  | MultiRemove a r flt =>
      bind (multi_remove c (s a) r flt) (fun x => Ok (set s a (fst x), Num (snd x)))
  | MultiPut a r first v kd flt =>
      bind (multi_put c g (s a) r first v kd flt)
        (fun x => Ok (set s a (fst x),
           match snd x with Done => Yes | NoSpace => No | More k => Upto k end))
  | MoveTo a b by_size limit =>
      bind (move_right g (s a) new_node by_size limit)
        (fun x => let '(nd, dst, n, _) := x in Ok (set (set s a nd) b dst, Num n))
  | CopySize a b start size =>
      bind (copy_by_size g (s a) (s b) start size)
        (fun x => let '(nd, n, _) := x in Ok (set s a nd, Num n))
  | CopyEntries a b start n =>
      bind (copy_by_entries g (s a) (s b) start n)
        (fun x => let '(nd, n, _) := x in Ok (set s a nd, Num n))
  | Clear a => Ok (set s a new_node, Yes)
  end.

Fixpoint run (s : state) (ops : list op) : res (state * list ans) :=
  match ops with
  | [] => Ok (s, [])
  | o :: r =>
      bind (step s o) (fun x => let (s, a) := x in
        bind (run s r) (fun y => Ok (fst y, a :: snd y)))
  end.

Fixpoint sorted (l : list (Z * Z)) : Prop :=
  match l with
  | [] => True
  | e :: l' => Forall (fun x => fst e < fst x)%Z l' /\ sorted l'
  end.

(** What callers see to: indices are there; range operations on sorted nodes; a
    range put does not change the prefix of its value while shifting it, and
    with UPDATE every key of the range is there; entries copied fit in what the
    node says is available. *)
Definition legal (s : state) (o : op) : Prop :=
  match o with
  | Insert a i k v => (i <= length (entries c (s a)))%nat
  | Update a i k v => (i < length (entries c (s a)))%nat
  | Remove a i => (i < length (entries c (s a)))%nat
  | MultiRemove a r flt => sorted (entries c (s a))
  | MultiPut a r first v kd flt =>
      sorted (entries c (s a)) /\
      (forall k, within r k = true -> vp c (vsh c v (k - first)%Z) = vp c v) /\
      (kd = Update_ -> forall k, within r k = true -> In k (map fst (entries c (s a))))
  | MoveTo a b by_size limit => a <> b
  | CopySize a b start size => a <> b /\ size <= avail g (s a)
  | CopyEntries a b start n =>
      a <> b /\
      (N.of_nat n * (g_psz g + g_ssz g) <= avail g (s a) \/
       has_room g (s a) n = false /\ N.of_nat n * (g_psz g + g_ssz g) <= avail_compact g (s a))
  | Clear a => True
  end.

Fixpoint legal_run (s : state) (ops : list op) : Prop :=
  match ops with
  | [] => True
  | o :: r => legal s o /\ forall s' x, step s o = Ok (s', x) -> legal_run s' r
  end.
End Run.

(** Keys and values come back; sizes are sane; the bitset has a bit for every
    slot there can be. *)
Definition codec_ok (c : codec) : Prop :=
  (forall k, kj c (kp c k) (ks c k) = k) /\ (forall v, vj c (vp c v) (vs c v) = v).
Definition geom_ok (g : geom) : Prop :=
  0 < g_psz g /\ 0 < g_ssz g /\ 4 <= g_base g <= g_data g /\ g_data g < 65536 /\
  g_data g < g_base g + N.of_nat (S (g_bits g)) * g_psz g + g_ssz g.

(** The users of a slot. *)
Definition users (nd : node) (s : nat) : nat :=
  length (filter (fun x => (fst x =? s)%nat) (n_sufs nd)).
