(** * Specification vocabulary for the free-block cache (C05, C06).
    Independent of the cache's code: extents of blocks, who holds a block, and what
    a client may do with blocks it was given. *)
From Coq Require Import NArith List Bool.
From Verif Require Import SlabModel ExtSpec.
Import ListNotations.
Local Open Scope N_scope.

(** ** Entries of a cache *)
Definition slab_entries (s : slab) : list entry := flat_map lv_q (sl_levels s).
Definition entries (c : cache) : list entry := flat_map slab_entries c.
Definition ext_of (e : entry) : ext := (e_num e, e_cnt e).
Definition exts (l : list entry) : list ext := map ext_of l.
Definition cached (c : cache) : list ext := exts (entries c).

(** Well-formed cache: slab i has size 2^i, at least one level, and only entries
    of its own size. *)
Definition wf_slab (i : nat) (s : slab) : Prop :=
  sl_size s = 2 ^ N.of_nat i /\ sl_levels s <> [] /\ Forall (fun e => e_cnt e = 2 ^ N.of_nat i) (slab_entries s).
Definition wf (c : cache) : Prop := forall i s, nth_error c i = Some s -> wf_slab i s.

(** Requests the allocator makes (varsize_blk_allocator.cpp:417, :495-497): at
    most the largest slab, search up to the last slab, smallest piece not above
    the slab of the request. *)
Definition legal_req (nslabs : nat) (req : alloc_req) : Prop :=
  r_nblks req <= 2 ^ N.of_nat (nslabs - 1) /\ (r_max req < nslabs)%nat /\
  (r_contig req = true \/ (r_min req <= Nat.min (find_slab (r_nblks req)) (r_max req))%nat).
Definition legal_op (nslabs : nat) (o : client_op) : Prop :=
  match o with OpAlloc req => legal_req nslabs req | _ => True end.

Definition total_holders (s : client) (b : N) : nat :=
  (holders b (cached (cl_cache s)) + holders b (exts (cl_live s)) + holders b (exts (cl_excess s)))%nat.
