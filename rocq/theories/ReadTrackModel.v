(** * Model of the read tracker and of the order of reads and frees in the data service.
    Source: src/lib/blkdata_svc/blk_read_tracker.{hpp,cpp}, and async_read, async_free_blk in
    src/lib/blkdata_svc/blkdata_service.cpp.
    sisl::SimpleHashMap is not in the repository; each of its calls locks one bucket, so one
    call on one key is one step here.  A read or a free is a list of such steps, and steps of
    different reads and frees interleave in any order.  A shared pointer to a waiter is
    counted: the one wait_on holds, and one per entry in m_waiters; the destructor of the waiter (the
    callback) runs when the last of them goes.  Block numbers have 31 bits (blk.h:49) and the
    arithmetic 32, so nothing wraps. *)
From Coq Require Import ZArith NArith List Bool Arith.
Import ListNotations.

(** A BlkId: chunk, first block, number of blocks. *)
Notation ext := (N * N * N)%type.
(** The key of a record: chunk and first block; the count is always entries_per_record. *)
Notation key := (N * N)%type.
(** blk_read_tracker.hpp:112 s_entries_per_record *)
Definition per_rec : N := 8.
Definition down (n : N) : N := (n / per_rec * per_rec)%N.
(** blk_read_tracker.cpp:31-38, :66: the records an id falls into, in the order of the loop. *)
Fixpoint bases (fuel : nat) (c cur last : N) : list key :=
  match fuel with
  | O => []
  | S f => if (cur <=? last)%N then (c, cur) :: bases f c (cur + per_rec) last else []
  end.
Definition keys (x : ext) : list key :=
  let '(c, n, k) := x in
  bases (S (N.to_nat k)) c (down n) (down (n + k - 1)).

(** BlkTrackRecord: reference count and waiters. *)
Notation record := (Z * list nat)%type.
Definition key_eqb (a b : key) : bool := (fst a =? fst b)%N && (snd a =? snd b)%N.
Definition tmap := list (key * record).
Fixpoint tfind (k : key) (m : tmap) : option record := match m with [] => None | (k', v) :: r => if key_eqb k' k then Some v else tfind k r end.
Definition tdel (k : key) (m : tmap) : tmap := filter (fun x => negb (key_eqb (fst x) k)) m.
Definition tput (k : key) (v : record) (m : tmap) : tmap := (k, v) :: tdel k m.

(** Steps: the three branches of merge (:42-64) for one record; a read being issued and coming
    back (blkdata_service.cpp:83-93 do_read); the return of wait_on. *)
Inductive mop := Inc (k : key) | Go | Back | Dec (k : key) | Add (k : key) | Drop.
Definition mop_eq_dec (a b : mop) : {a = b} + {a <> b}.
Proof. repeat decide equality. Defined.
(** blkdata_service.cpp:83-93 do_read: insert, the read, remove. *)
Definition read_ops (x : ext) : list mop := map Inc (keys x) ++ [Go; Back] ++ map Dec (keys x).
(** blk_read_tracker.cpp:79-90 wait_on: all pieces with the same waiter. *)
Definition free_ops (xs : list ext) : list mop := map Add (flat_map keys xs) ++ [Drop].
Inductive job := JRead (x : ext) | JFree (xs : list ext).
Inductive event := EGo (i : nat) | EBack (i : nat) | EAsk (i : nat) | EFire (i : nat).
Definition upd {A} (f : nat -> A) (i : nat) (v : A) : nat -> A := fun j => if Nat.eqb j i then v else f j.
(** Jobs are numbered as they start; [t_ops]: the steps a job has left. *)
Record st := St { t_n : nat; t_job : nat -> job; t_ops : nat -> list mop; t_map : tmap; t_log : list event }.
Definition init : st := St 0 (fun _ => JFree []) (fun _ => []) [] [].

(** Who still points to waiter [w]. *)
Definition in_rec (w : nat) (m : tmap) : bool := existsb (fun x => existsb (Nat.eqb w) (snd (snd x))) m.
Definition held (w : nat) (ops : nat -> list mop) : bool := existsb (fun o => if mop_eq_dec o Drop then true else false) (ops w).
Definition fires (ops : nat -> list mop) (m : tmap) (ws : list nat) : list event :=
  map EFire (filter (fun w => negb (in_rec w m) && negb (held w ops)) (nodup Nat.eq_dec ws)).

Definition start (j : job) (s : st) : st :=
  St (S (t_n s)) (upd (t_job s) (t_n s) j) (upd (t_ops s) (t_n s) (match j with JRead x => read_ops x | JFree xs => free_ops xs end)) (t_map s)
     (t_log s ++ match j with JRead _ => [] | JFree _ => [EAsk (t_n s)] end).
(** [None]: a count is taken back that is not there (:54). *)
Definition step (i : nat) (s : st) : option st :=
  match t_ops s i with
  | [] => Some s
  | o :: r =>
    let ops := upd (t_ops s) i r in
    let go m es := Some (St (t_n s) (t_job s) ops m (t_log s ++ es)) in
    match o with
    | Inc k => match tfind k (t_map s) with
               | Some (c, ws) => go (tput k ((c + 1)%Z, ws) (t_map s)) []
               | None => go (tput k (1%Z, []) (t_map s)) []
               end
    | Go => go (t_map s) [EGo i]
    | Back => go (t_map s) [EBack i]
    | Dec k => match tfind k (t_map s) with
               | Some (c, ws) => if Z.eqb (c - 1) 0 then go (tdel k (t_map s)) (fires ops (tdel k (t_map s)) ws) else go (tput k ((c - 1)%Z, ws) (t_map s)) []
               | None => None
               end
    | Add k => match tfind k (t_map s) with
               | Some (c, ws) => go (tput k (c, ws ++ [i]) (t_map s)) []
               | None => go (t_map s) []
               end
    | Drop => go (t_map s) (fires ops (t_map s) [i])
    end
  end.
