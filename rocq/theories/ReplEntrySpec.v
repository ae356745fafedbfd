(** * What recovery of a replicated write must give back. *)
From Coq Require Import NArith ZArith List.
From Verif Require Import BlkIdModel BlkIdSpec ReplEntryModel.
Import ListNotations.

(** An id of [n] pieces made with the API. *)
Definition an_id (n : nat) (m : multi) : Prop :=
  exists c ps, scattered c ps /\ length ps = n /\ (1 <= n)%nat /\ build multi_empty ps = Some m.
Definition pieces_of (m : multi) : list extent := map names (iterate m).

(** The fields fit their C types. *)
Definition req_ok (q : req) : Prop :=
  (q_code q < 2 ^ 16)%N /\ (q_trace q < 2 ^ 64)%N /\ (q_dsn q < 2 ^ 64)%N /\
  Forall (fun x => x < 256)%N (q_hdr q ++ q_key q) /\
  (N.of_nat (length (q_hdr q) + length (q_key q)) < 2 ^ 31)%N.
Definition server_ok (z : Z) : Prop := (- 2 ^ 31 <= z < 2 ^ 31)%Z.
