(** * What fetching must do. *)
From Coq Require Import Arith NArith List Bool.
From Verif Require Import ReplDataModel FetchModel.
Import ListNotations.
Open Scope N_scope.

(** The content of scattered blocks. *)
Definition content (d : addr -> N) (x : id) : list N := map d (expand x).

(** Ids of requests: local and remote blocks are as many, less than 2^16; local blocks of different
    requests are different, and so are those of one. *)
Definition counted (x : id) : Prop := N.of_nat (length (expand x)) < 2 ^ 16.
Record sound (q : nat -> req) : Prop := {
  so_count : forall i, counted (q_remote (q i));
  so_same : forall i, length (expand (q_local (q i))) = length (expand (q_remote (q i)));
  so_nodup : forall i, NoDup (expand (q_local (q i)));
  so_apart : forall i j a, In a (expand (q_local (q i))) -> In a (expand (q_local (q j))) -> i = j
}.

(** The events are those of an originator whose drive has [d] at the remote blocks: an answer has the
    content of every request of the batch, one after the other, or nothing; pushed data is the
    content too. *)
Definition genuine (q : nat -> req) (d : addr -> N) (e : ev) : Prop :=
  match e with
  | Answer b data => data = [] \/ data = concat (map (fun i => content d (q_remote (q i))) b)
  | Push i data => data = content d (q_remote (q i))
  | Fail _ | GiveUp _ => True
  end.

(** Data of request [i] was asked for in a batch that was answered, or pushed. *)
Definition served (i : nat) (e : ev) : Prop :=
  match e with
  | Answer b data => In i b /\ data <> []
  | Push j _ => j = i
  | _ => False
  end.

(** A request has its data. *)
Definition received (s : st) (i : nat) : Prop := has (s_bits s i) DATA_RECEIVED = true.
Definition written (s : st) (i : nat) : Prop := has (s_bits s i) DATA_WRITTEN = true.

(** Sizes of a batch. *)
Definition bytes (q : nat -> req) (bs : N) (b : list nat) : N :=
  fold_right (fun i n => N.of_nat (length (expand (q_remote (q i)))) * bs + n) 0 b.
