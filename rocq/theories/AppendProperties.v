(** Properties C07 and C08: the append allocator. *)
From Coq Require Import NArith List Lia.
From Verif Require Import ExtSpec AppendModel AppendSpec AppendProofs.
Import ListNotations.
Local Open Scope N_scope.

(** C07: without concurrency the extents returned over any history follow each other
    from block 0 and end inside the chunk. *)
Theorem c07_sequential : forall total ops s l, total < 4294967296 -> arun (fresh_alloc total) ops = (s, l) ->
  chain 0 l (a_last s) /\ a_last s <= total.
Proof. exact c07_seq_lemma. Qed.
Print Assumptions c07_sequential.

(** C07: a request is refused exactly when it does not fit into what is left after
    the reservation hint. *)
Theorem c07_refused_iff_full : forall total ops s l n r, total < 4294967296 -> n <= 65535 ->
  arun (fresh_alloc total) ops = (s, l) ->
  if n <=? total - a_last s - match r with Some k => k | None => 0 end
  then exists s', alloc s n r = (s', AllocOk (a_last s) n)
  else alloc s n r = (s, SpaceFull).
Proof. exact c07_refuse_lemma. Qed.
Print Assumptions c07_refused_iff_full.

Example c07_seq_ex : snd (arun (fresh_alloc 10) [UAlloc 4 None; UAlloc 4 (Some 5); UCheckpoint; UAlloc 5 None; UAlloc 2 (Some 4)])
   = [(0, 4); (4, 5)].
Proof. vm_compute. reflexivity. Qed.

(** C07: concurrent callers still get extents that follow each other, so never
    overlapping, as long as the 32-bit offset does not wrap. *)
Theorem c07_concurrent_disjoint : forall total l, requested l < 4294967296 ->
  let s := crun (Cst (fresh_alloc total) [] []) l in chain 0 (map snd (c_out s)) (a_last (c_ast s)).
Proof. exact c07_conc_lemma. Qed.
Print Assumptions c07_concurrent_disjoint.

Example c07_conc_ex : let l := [Check 1 2 None; Check 2 3 None; Bump 2; Check 3 5 None; Bump 1; Bump 3] in
  requested l < 4294967296 /\ c_out (crun (Cst (fresh_alloc 10) [] []) l) = [(2%nat, (0, 3)); (1%nat, (3, 2)); (3%nat, (5, 5))].
Proof. vm_compute. split; reflexivity. Qed.

(** C07: but two callers that both pass the check are given twelve blocks of a
    ten-block chunk. *)
Theorem c07_concurrent_capacity_refuted : exists total l, total < 4294967296 /\
  c_out (crun (Cst (fresh_alloc total) [] []) l) = [(1%nat, (0, 6)); (2%nat, (6, 6))] /\ total = 10.
Proof. exact c07_race_lemma. Qed.
Print Assumptions c07_concurrent_capacity_refuted.

(** C07: after that the unsigned space left wraps, and every later request succeeds. *)
Theorem c07_unbounded_after_race_refuted : exists total l, total = 10 /\
  In (3%nat, (12, 65535)) (c_out (crun (Cst (fresh_alloc total) [] []) l)).
Proof. exact c07_after_race_lemma. Qed.
Print Assumptions c07_unbounded_after_race_refuted.

(** C08: the whole state after recovery depends only on which extents are replayed,
    not on their order or how often. *)
Theorem c08_replay_order_irrelevant : forall s l l', (forall x, In x l <-> In x l') ->
  replay (restart s) l = replay (restart s) l'.
Proof. exact c08_order_lemma. Qed.
Print Assumptions c08_replay_order_irrelevant.

(** C08: the append point is the largest of the persisted point and the replayed ends. *)
Theorem c08_append_point : forall s l,
  a_last (replay (restart s) l) = max_end (match a_disk s with Some (c, _) => c | None => 0 end) l.
Proof. exact c08_point_lemma. Qed.
Print Assumptions c08_append_point.

(** C08: whatever the user does after the replay, no new extent overlaps a replayed one. *)
Theorem c08_no_overlap_after_replay : forall s j ops s' l x y, a_total s < 4294967296 ->
  a_last (replay (restart s) j) <= a_total s ->
  arun (replay (restart s) j) ops = (s', l) -> In x j -> In y l -> ~ overlap x y.
Proof. exact c08_no_overlap_lemma. Qed.
Print Assumptions c08_no_overlap_after_replay.

(** C08: in every history of allocations, commits, frees, checkpoints and crashes, if
    every commit since the last checkpoint is in the replayed journal, then no block
    belongs to two extents that are committed or handed out. *)
Theorem c08_history_disjoint : forall total s, total < 4294967296 -> hreach total s ->
  (forall b, (holders b (h_out s ++ h_recent s ++ h_old s) <= 1)%nat) /\
  (forall x, In x (h_out s ++ h_recent s ++ h_old s) -> fst x + snd x <= total).
Proof. exact c08_history_lemma. Qed.
Print Assumptions c08_history_disjoint.

Example c08_history_ex : exists s, hreach 100 s /\ h_old s = [(0, 4)] /\ h_recent s = [(9, 3); (4, 5)] /\ h_out s = [(12, 7)].
Proof.
  pose proof (hr_init 100) as H.
  eapply hr_step with (o := HAlloc 4 None) in H; [|eapply hs_alloc_ok; vm_compute; reflexivity].
  eapply hr_step with (o := HCommit (0, 4)) in H; [|eapply hs_commit; vm_compute; reflexivity].
  eapply hr_step with (o := HCheckpoint) in H; [|apply hs_cp].
  eapply hr_step with (o := HAlloc 5 None) in H; [|eapply hs_alloc_ok; vm_compute; reflexivity].
  eapply hr_step with (o := HAlloc 3 None) in H; [|eapply hs_alloc_ok; vm_compute; reflexivity].
  eapply hr_step with (o := HCommit (4, 5)) in H; [|eapply hs_commit; vm_compute; reflexivity].
  eapply hr_step with (o := HCommit (9, 3)) in H; [|eapply hs_commit; vm_compute; reflexivity].
  eapply hr_step with (o := HAlloc 20 None) in H; [|eapply hs_alloc_ok; vm_compute; reflexivity].
  eapply hr_step with (o := HCrash [(9, 3); (0, 4); (4, 5); (9, 3)]) in H;
    [|apply hs_crash; split; cbn; intros x; intuition].
  eapply hr_step with (o := HAlloc 7 None) in H; [|eapply hs_alloc_ok; vm_compute; reflexivity].
  eexists. split; [exact H|]. vm_compute. auto.
Qed.
