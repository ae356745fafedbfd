(** Property C09: the fixed-size allocator. *)
From Coq Require Import NArith List Lia.
From Verif Require Import FixedModel FixedSpec FixedProofs.
Import ListNotations.
Local Open Scope N_scope.

(** C09: from any bitmap and over any legal history, including recovery, no block is
    owned twice. *)
Theorem c09_single_owner : forall total p bm ops, legal_run (start total p bm) ops ->
  forall b, (copies b (u_owned (urun (start total p bm) ops)) <= 1)%nat.
Proof. exact c09_owner_lemma. Qed.
Print Assumptions c09_single_owner.

(** C09: once recovery is over every block is either queued once or owned once. *)
Theorem c09_conservation : forall total p bm ops, legal_run (start total p bm) ops ->
  let u := urun (start total p bm) ops in f_active (u_alloc u) = true ->
  forall b, (copies b (f_q (u_alloc u)) + copies b (u_owned u) = if N.ltb b total then 1 else 0)%nat.
Proof. exact c09_active_lemma. Qed.
Print Assumptions c09_conservation.

(** C09: an allocation is refused only when every block is owned. *)
Theorem c09_full_means_full : forall total p bm ops s, legal_run (start total p bm) ops ->
  alloc (u_alloc (urun (start total p bm) ops)) = (s, None) ->
  forall b, b < total -> In b (u_owned (urun (start total p bm) ops)).
Proof. exact c09_full_lemma. Qed.
Print Assumptions c09_full_means_full.

Definition c09_history := [Replay 1; Alloc; Replay 3; Replay 1; Free 2; Alloc; Recovered; Free 1; Alloc; Alloc].
Example c09_ex : let bm := fun b => b =? 0 in
  legal_run (start 5 true bm) c09_history /\
  u_owned (urun (start 5 true bm) c09_history) = [1; 2; 4; 3; 0] /\
  f_q (u_alloc (urun (start 5 true bm) c09_history)) = [].
Proof. vm_compute. intuition (try discriminate; try congruence). Qed.

(** C09: freeing a block that is not owned makes the allocator hand it out twice. *)
Theorem c09_double_free_refuted : exists ops, 
  (copies 0 (u_owned (urun (start 4 true (fun _ => false)) ops)) = 2)%nat.
Proof. exact c09_double_free_witness. Qed.
Print Assumptions c09_double_free_refuted.

(** C09: so does freeing, during recovery, a block that was re-reserved in the same
    recovery: it is still in the queue and [free] queues it once more. *)
Theorem c09_replay_then_free_refuted : exists ops,
  (forall b, In (Free b) ops -> In (Replay b) ops) /\
  (copies 1 (u_owned (urun (start 4 true (fun b => N.eqb b 0)) ops)) = 2)%nat.
Proof. exact c09_replay_free_witness. Qed.
Print Assumptions c09_replay_then_free_refuted.
