(** * Scattered reads and writes: the specification. *)
From Coq Require Import NArith List Bool Permutation.
From Verif Require Import DataSvcModel.
Import ListNotations.
Open Scope N_scope.

(** Blocks of an id, in order; every byte of them. *)
Definition blocks (x : piece) : list (N * N) := let '(c, b, k) := x in map (pair c) (nseq b k).
Definition id_bytes (bs : N) (xs : list piece) : N := bs * N.of_nat (length (flat_map blocks xs)).
(** Chunks lie apart on their drives; [size] of each. *)
Definition env_ok (e : env) (size : N -> N) : Prop :=
  0 < e_bs e /\
  forall c c' p s s', c <> c' -> e_chunk e c = Some (p, s) -> e_chunk e c' = Some (p, s') -> s + size c <= s' \/ s' + size c' <= s.
(** A piece is in a chunk that is there. *)
Definition piece_ok (e : env) (size : N -> N) (x : piece) : Prop := let '(c, b, k) := x in e_chunk e c <> None /\ (b + k) * e_bs e <= size c.
(** What is stored in block [x] (chunk, block). *)
Definition block_at (e : env) (d : disk) (x : N * N) : list N :=
  match e_chunk e (fst x) with Some (p, s) => map (fun i => d (p, s + snd x * e_bs e + i)) (nseq 0 (e_bs e)) | None => [] end.
Definition stored (e : env) (d : disk) (xs : list piece) : list N := flat_map (block_at e d) (flat_map blocks xs).
(** The bytes in a buffer list; its addresses. *)
Definition addrs (l : list iov) : list N := flat_map (fun x => nseq (fst x) (snd x)) l.
Definition bytes (m : mem) (l : list iov) : list N := map m (addrs l).
(** Requests done in some order. *)
Definition writes_done (m : mem) (rs : list req) (d d' : disk) : Prop := exists l, Permutation rs l /\ d' = fold_left (do_write m) l d.
Definition reads_done (d : disk) (rs : list req) (m m' : mem) : Prop := exists l, Permutation rs l /\ m' = fold_left (do_read d) l m.
(** The ways to read or write. *)
Inductive call := CSg (l : list iov) (xs : list piece) | CBuf (b sz : N) (xs : list piece) | CVec (l : list iov) (ids : list (list piece)).
Definition call_reqs (e : env) (c : call) : list (option req) :=
  match c with CSg l xs => sg_reqs e l xs | CBuf b sz xs => buf_reqs e b sz xs | CVec l ids => vec_reqs e l ids end.
Definition call_iovs (c : call) : list iov := match c with CSg l _ | CVec l _ => l | CBuf b sz _ => [(b, sz)] end.
Definition call_pieces (c : call) : list piece := match c with CSg _ xs | CBuf _ _ xs => xs | CVec _ ids => concat ids end.
(** As many bytes as the id has; the ids of a vector have fewer than 2^16 blocks each. *)
Definition call_ok (e : env) (c : call) : Prop :=
  N.of_nat (length (addrs (call_iovs c))) = id_bytes (e_bs e) (call_pieces c) /\
  match c with CVec _ ids => Forall (fun xs => N.of_nat (length (flat_map blocks xs)) < 65536) ids | _ => True end.
