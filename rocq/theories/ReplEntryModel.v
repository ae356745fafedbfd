(** * Model of the journal entry of a replicated write.
    Source: src/lib/replication/repl_dev/common.cpp, common.h, solo_repl_dev.cpp,
    raft_repl_dev.cpp, raft_state_machine.cpp.  Bytes are numbers below 256; a raft log entry
    is the bytes of its buffer (nuraft's own framing, which carries term and type, is left
    out). *)
From Coq Require Import NArith ZArith List Bool.
From Verif Require Import Base ByteBase BlkIdModel.
Import ListNotations.

Notation bytes := (list N).

(** repl_dev.h:62-71, the codes of data entries; [code_linked] carries block ids. *)
Definition code_linked : N := 0.
Definition code_inlined : N := 1.

(** The part of repl_req_ctx that is journaled (repl_dev.h:104-260). *)
Record req := Req { q_code : N; q_trace : N; q_dsn : N; q_hdr : bytes; q_key : bytes; q_ids : list multi }.

(** common.h:28-56: the packed entry header, 38 bytes. *)
Definition entry_header : nat := 38.
(** int32_t in two's complement. *)
Definition z32 (z : Z) : N := Z.to_N (z mod 2 ^ 32).
Definition unz32 (n : N) : Z := if (n <? 2 ^ 31)%N then Z.of_N n else (Z.of_N n - 2 ^ 32)%Z.

(** repl_dev.h:181 has_linked_data; common.cpp:113-119 blkids_serialized_size. *)
Definition linked (q : req) : bool := (q_code q =? code_linked)%N.
Definition value_bytes (q : req) : bytes :=
  if linked q then flat_map multi_serialize (q_ids q) else [].
Definition ids_size (ids : list multi) : nat := fold_right (fun m a => serialized_size m + a) 0 ids.
Definition value_size (q : req) : nat := if linked q then ids_size (q_ids q) else 0.

(** common.cpp:67-106 create_journal_entry.  The sizes are kept in 32 bits. *)
Definition create_entry (q : req) (server : Z) : bytes :=
  le 2 1 ++ le 2 1 ++ le 2 (q_code q) ++ le 8 (q_trace q) ++ le 4 (z32 server) ++ le 8 (q_dsn q) ++
  le 4 (N.of_nat (length (q_hdr q))) ++ le 4 (N.of_nat (length (q_key q))) ++ le 4 (N.of_nat (value_size q)) ++
  q_hdr q ++ q_key q ++ value_bytes q.

(** The fields of an entry. *)
Definition e_major (b : bytes) : N := get 0 2 b.
Definition e_code (b : bytes) : N := get 4 2 b.
Definition e_trace (b : bytes) : N := get 6 8 b.
Definition e_server (b : bytes) : Z := unz32 (get 14 4 b).
Definition e_dsn (b : bytes) : N := get 18 8 b.
Definition e_hdr (b : bytes) : nat := N.to_nat (get 26 4 b).
Definition e_key (b : bytes) : nat := N.to_nat (get 30 4 b).
Definition e_val (b : bytes) : nat := N.to_nat (get 34 4 b).

Inductive res (A : Type) := Done (a : A) | Assert | Ub.
Arguments Done {A} _. Arguments Assert {A}. Arguments Ub {A}.

(** solo_repl_dev.cpp:205-213: one id for every 8 bytes left.  With fewer than 8 left the code
    reads behind the buffer and the unsigned counter wraps. *)
Fixpoint solo_ids (fuel : nat) (b : bytes) : res (list multi) :=
  match b with
  | [] => Done []
  | _ =>
    match fuel with
    | O => Ub
    | S f =>
      if Nat.ltb (length b) 8 then Ub
      else match multi_deserialize (firstn 8 b), solo_ids f (skipn 8 b) with
           | Some m, Done l => Done (m :: l)
           | _, _ => Ub
           end
    end
  end.
(** solo_repl_dev.cpp:186-223 on_log_found: what the listener is given: header, key, ids. *)
Definition solo_decode (b : bytes) : res (bytes * bytes * list multi) :=
  if Nat.ltb (length b) entry_header then Ub
  else if negb (e_major b =? 1)%N then Assert
  else
    let rest := skipn entry_header b in
    if Nat.ltb (length rest) (e_hdr b) then Assert
    else if Nat.ltb (length rest - e_hdr b) (e_key b) then Assert
    else match solo_ids (length b) (skipn (e_hdr b + e_key b) rest) with
         | Done ids => Done (firstn (e_hdr b) rest, firstn (e_key b) (skipn (e_hdr b) rest), ids)
         | _ => Ub
         end.

(** What a raft replica takes from an entry. *)
Record entry := Entry { n_code : N; n_trace : N; n_server : Z; n_dsn : N; n_hdr : bytes; n_key : bytes; n_id : option multi }.
(** raft_repl_dev.cpp:2715-2767 on_log_found and raft_state_machine.cpp:56-94: the value is one
    id.  Reading behind the buffer is undefined. *)
Definition raft_decode (b : bytes) : res entry :=
  if Nat.ltb (length b) entry_header then Ub
  else if negb (e_major b =? 1)%N then Assert
  else if Nat.ltb (length b) (entry_header + e_hdr b + e_key b + e_val b) then Ub
  else
    let fin id := Done (Entry (e_code b) (e_trace b) (e_server b) (e_dsn b) (sub entry_header (e_hdr b) b)
                              (sub (entry_header + e_hdr b) (e_key b) b) id) in
    if (e_code b =? code_linked)%N && Nat.ltb 0 (e_val b)
    then match multi_deserialize (sub (entry_header + e_hdr b + e_key b) (e_val b) b) with
         | Some m => fin (Some m)
         | None => Ub
         end
    else fin None.

(** raft_state_machine.cpp:100-117 and :189: a follower replaces the leader's id by its own,
    in place, and the server id.  The larger buffer of :107-113 is not used (the debug-only
    assertion before it is left out).  Writing behind the buffer is undefined. *)
Definition localize (b : bytes) (mine : multi) (server : Z) : res bytes :=
  match raft_decode b with
  | Done e =>
    match n_id e with
    | None => Done (put 14 (le 4 (z32 server)) b)
    | Some _ =>
      let off := length b - e_val b in
      if Nat.ltb (length b) (off + serialized_size mine) then Ub
      else Done (put 14 (le 4 (z32 server)) (put off (multi_serialize mine) b))
    end
  | Assert => Assert
  | Ub => Ub
  end.

