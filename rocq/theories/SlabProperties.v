(** Properties C05 and C06: the free-block cache. *)
From Coq Require Import NArith List Permutation Lia.
From Verif Require Import ExtSpec SlabModel SlabSpec SlabProofs.
Import ListNotations.
Local Open Scope N_scope.

(** C05: an extent smaller than twice the largest slab is cut into end-to-end pieces,
    each with a slab of its size; every piece ends up on a queue or in the excess
    list and nothing else changes.  [2 ^ length c] is twice the largest slab. *)
Theorem c05_free_covers_exactly : forall c e ex, wf c -> e_cnt e < 65535 -> e_cnt e < 2 ^ N.of_nat (length c) ->
  exists c' pieces rejected, try_free_blks c e ex = Some (c', ex ++ rejected) /\
    tiles (e_num e) (e_cnt e) (exts pieces) /\
    Forall (fun p => exists s, In s c /\ sl_size s = e_cnt p) pieces /\
    Permutation (entries c' ++ rejected) (entries c ++ pieces) /\ wf c'.
Proof. exact c05_lemma. Qed.
Print Assumptions c05_free_covers_exactly.

Example c05_free_ex : wf three_slabs /\
  exists c', try_free_blks three_slabs (Entry 200 7 2) [] = Some (c', []) /\
    cached c' = [(100, 1); (206, 1); (8, 2); (204, 2); (0, 4); (4, 4); (200, 4)].
Proof. split; [exact three_slabs_wf|]. eexists. split; vm_compute; reflexivity. Qed.

(** C05: at twice the largest slab the code indexes a queue that does not exist. *)
Theorem c05_too_large_refuted : exists c e, wf c /\ e_cnt e = 2 ^ N.of_nat (length c) /\ try_free_blks c e [] = None.
Proof. exact c05_too_large_witness. Qed.
Print Assumptions c05_too_large_refuted.

(** C06: in every history of allocations, frees and partial frees no operation is
    undefined and each block is held exactly as often as at the start, counting the
    cache, the client and the excess list together. *)
Theorem c06_blocks_conserved : forall c0 ops, wf c0 -> (0 < length c0 <= 16)%nat ->
  Forall (legal_op (length c0)) ops ->
  exists s, client_run (Client c0 [] []) ops = Some s /\ forall b, total_holders s b = holders b (cached c0).
Proof. exact c06_history_lemma. Qed.
Print Assumptions c06_blocks_conserved.

(** C06: hence a block is never handed out twice. *)
Theorem c06_never_handed_out_twice : forall c0 ops s, wf c0 -> (0 < length c0 <= 16)%nat ->
  Forall (legal_op (length c0)) ops ->
  (forall b, (holders b (cached c0) <= 1)%nat) -> client_run (Client c0 [] []) ops = Some s ->
  forall b, (holders b (exts (cl_live s)) + holders b (cached (cl_cache s)) + holders b (exts (cl_excess s)) <= 1)%nat.
Proof. exact c06_disjoint_lemma. Qed.
Print Assumptions c06_never_handed_out_twice.

(** C06: what one allocation returns.  SUCCESS means exactly the requested number of
    blocks, a contiguous request gets one extent or nothing, and a scattered request
    without a minimum piece size falls short only when the cache is drained. *)
Theorem c06_allocation_result : forall c req, wf c -> (0 < length c <= 16)%nat -> legal_req (length c) req ->
  exists c' rs st, try_alloc_blks c req resp0 = Some (c', rs, st) /\
    blocks (exts (rs_out rs)) <= r_nblks req /\
    (st = SUCCESS <-> blocks (exts (rs_out rs)) = r_nblks req) /\
    (r_contig req = true -> (length (rs_out rs) <= 1)%nat /\ (st <> SUCCESS -> rs_out rs = [])) /\
    (st = FAILED -> blocks (exts (rs_out rs)) = 0) /\
    (st <> SUCCESS -> r_contig req = false -> r_min req = O -> cached c' = []).
Proof. exact c06_result_lemma. Qed.
Print Assumptions c06_allocation_result.

Example c06_ex : legal_req 3 (Req 3 0 true 0 2) /\
  exists s, client_run (Client three_slabs [] [])
     [OpAlloc (Req 3 0 true 0 2); OpAlloc (Req 4 0 false 0 2); OpFree 0] = Some s /\
    exts (cl_live s) = [(4, 4)] /\ length (cached (cl_cache s)) = 5%nat.
Proof.
  split.
  - split; [vm_compute; discriminate|]. split; [cbn; lia|]. now left.
  - eexists. split; [vm_compute; reflexivity|]. split; vm_compute; reflexivity.
Qed.

(** C06: a refill adds exactly the blocks it reports as taken from the free range. *)
Theorem c06_refill_exact : forall c rq start nblks lvl only c' rq' added,
  wf c -> try_fill_cache c rq start nblks lvl only = Some (c', rq', added) ->
  added <= nblks /\ forall b, holders b (cached c') = (holders b (cached c) + holders b [(start, added)])%nat.
Proof. exact c06_refill_lemma. Qed.
Print Assumptions c06_refill_exact.

Example c06_refill_ex : exists c' rq', try_fill_cache three_slabs
    [Refill 3 0; Refill 1 0; Refill 2 0] 300 11 0 false = Some (c', rq', 11) /\
    cached c' = [(100, 1); (310, 1); (308, 2); (8, 2); (0, 4); (4, 4); (300, 4); (304, 4)].
Proof. eexists _, _. split; vm_compute; reflexivity. Qed.

(** C06: a scattered request whose minimum piece (slab 1) is above the slab of the
    request (slab 0) walks below slab 0: undefined behaviour. *)
Theorem c06_min_piece_refuted : exists c req, wf c /\ r_nblks req = 1 /\ r_min req = find_slab 2 /\
  r_contig req = false /\ try_alloc_blks c req resp0 = None.
Proof. exact c06_min_piece_witness. Qed.
Print Assumptions c06_min_piece_refuted.

(** C06: a fill session leaves out slabs that need nothing, so the slot of a later
    slab is looked up outside the vector. *)
Theorem c06_fill_session_refuted : exists c, wf c /\
  (length (create_fill_session c (fun _ => 1%nat) true) < length c)%nat /\
  try_fill_cache c (create_fill_session c (fun _ => 1%nat) true) 0 2 1 false = None.
Proof. exact c06_session_witness. Qed.
Print Assumptions c06_fill_session_refuted.
