(** * Properties of crash recovery of a replica (C49, C92 - C94, C135). *)
From Coq Require Import ZArith List Bool Lia.
From Verif Require Import Base ReplayModel ReplaySpec ReplayProofs.
Import ListNotations.
Open Scope Z_scope.

Definition any (s : st) (e : ev) : bool := true.

(** C92: whatever the order of commits, checkpoints, saves of the commit position and crashes,
    after a restart of a raft replica the effects of every write in its log are present or the
    write is still to be committed from the log, whatever truncation boundaries are proposed
    and however far raft asks for compaction. *)
Theorem c92_raft_replay : forall s s' l, reach Raft free s -> step Raft s Reboot = Next s' ->
  1 <= l <= log s -> present s' l \/ pending s' l.
Proof. exact raft_replay. Qed.
Print Assumptions c92_raft_replay.

Definition free_b (s : st) (e : ev) : bool := match e with SnapHead _ => false | _ => true end.
Lemma free_b_ok s e : free_b s e = true -> free s e.
Proof. destruct e; cbn; auto. discriminate. Qed.
(** Three writes, a checkpoint that takes the first and is flushed while the second commits,
    a compaction, a crash, then another crash in the middle of a commit. *)
Definition case92 : list ev :=
  [Journal; Journal; Step1; Step2; Switch; Step1; FlushOthers; Step2; LoadDc; Seal; StoreDc; Finish; Boundary 2; Compact 5; Journal;
   Reboot; Step1; Switch].
Example c92_case :
  let s := ends Raft (init Raft) case92 in
  reach Raft free s /\ dur s = [1] /\ ck s = 1 /\ tr s = 1 /\ log s = 3 /\
  exists s', step Raft s Reboot = Next s' /\ present s' 1 /\ present s' 2 /\ pending s' 3.
Proof.
  cbv zeta. split; [|split; [|split; [|split; [|split]]]].
  1: { apply (reach_run Raft free_b free free_b_ok); [apply reach_init|vm_compute; reflexivity]. }
  all: try (vm_compute; reflexivity).
  eexists. split; [vm_compute; reflexivity|]. unfold present, pending. cbn. ands; auto; lia.
Qed.

(** C94: a raft replica keeps every entry in its log until a checkpoint has made its effects
    durable, and the checkpoint is on disk before the entry goes. *)
Theorem c94_compaction : forall s l, reach Raft free s -> 1 <= l <= tr s -> In l (dur s).
Proof.
  intros s l R Hl. destruct (ri_tr _ (rinv_reach s R) l Hl) as [H|H]; [exact H|].
  unfold cov in H. rewrite (proj1 (free_rcv s R)) in H. destruct H.
Qed.
Print Assumptions c94_compaction.
(** It moves: whatever has been checkpointed can be compacted. *)
Theorem c94_compaction_progress : forall s u, reach Raft free s -> u <= ck s -> exists s1 s2,
  step Raft s (Boundary u) = Next s1 /\ step Raft s1 (Compact u) = Next s2 /\ u <= tr s2.
Proof.
  intros s u R Hu. destruct (free_rcv s R) as [E1 E2]. eexists. eexists. split; [reflexivity|].
  cbn [step rph rcv nxt]. rewrite E1, E2. cbn [Nat.eqb is_some orb andb]. split; [reflexivity|]. cbn [tr lim].
  set (m := if Z.min u (ck s) <=? lim s then _ else _).
  assert (Hm : u <= m) by (unfold m; destruct (Z.leb_spec (Z.min u (ck s)) (lim s)); lia). clearbody m.
  destruct (Z.leb_spec (Z.min u m) (tr s)); lia.
Qed.
Print Assumptions c94_compaction_progress.
(** Four committed writes, a checkpoint that has three of them, a boundary beyond it. *)
Example c94_case :
  let s := ends Raft (init Raft) [Journal; Step1; Step2; Journal; Step1; Step2; Journal; Step1; Step2; Switch; Journal; Step1; Step2;
             Boundary 4; Compact 4; FlushOthers; Seal; Finish; Compact 4; Boundary 4; Compact 4] in
  reach Raft free s /\ commit s = 4 /\ tr s = 3 /\ dur s = [1; 2; 3].
Proof.
  cbv zeta. split; [|split; [|split]]; try (vm_compute; reflexivity).
  apply (reach_run Raft free_b free free_b_ok); [apply reach_init|vm_compute; reflexivity].
Qed.

(** C135: with baseline resyncs at any time, interrupted by crashes at any point, after a restart
    every write in the log is present, or still to be committed from the log, or within the
    snapshot that the raft library will ask for again. *)
Theorem c135_resync_replay : forall s s' l, reach Raft onward s -> step Raft s Reboot = Next s' ->
  1 <= l <= log s -> present s' l \/ pending s' l \/ exists i, rcv s' = Some i /\ l <= i.
Proof.
  intros s s' l R E Hl. destruct (resync_replay s s' l R E Hl) as [H|[H|H]]; auto.
  right. right. unfold cov in H. destruct (rcv s') as [i|]; [eauto|destruct H].
Qed.
Print Assumptions c135_resync_replay.
(** Nothing leaves the log unless it is durable or within that snapshot, and once a snapshot
    is no longer under way all it brought is durable. *)
Theorem c135_resync_compaction : forall s l, reach Raft onward s -> 1 <= l <= tr s ->
  In l (dur s) \/ exists i, rcv s = Some i /\ l <= i.
Proof.
  intros s l R Hl. destruct (ri_tr _ (rinv_any s R) l Hl) as [H|H]; auto.
  right. unfold cov in H. destruct (rcv s) as [i|]; [eauto|destruct H].
Qed.
Print Assumptions c135_resync_compaction.
Theorem c135_resync_done : forall s l, reach Raft onward s -> rcv s = None -> 1 <= l <= snap s -> In l (dur s).
Proof.
  intros s l R E Hl. destruct (ri_snap _ (rinv_any s R) l Hl) as [H|H]; auto.
  unfold cov in H. rewrite E in H. destruct H.
Qed.
Print Assumptions c135_resync_done.
(** A restart commits nothing again that a snapshot, received or under way, has. *)
Theorem c135_resync_once : forall s s' l, reach Raft onward s -> step Raft s Reboot = Next s' ->
  In l (cur s') -> snap s < l /\ forall i, rcv s' = Some i -> i < l.
Proof.
  intros s s' l R E H. cbn in E. injection E as <-. cbn in *. apply between_in in H. split; [lia|].
  intros i Hi. destruct (ri_rcv _ (rinv_any s R) i Hi) as (Es & _). lia.
Qed.
Print Assumptions c135_resync_once.
Definition onward_b (s : st) (e : ev) : bool := match e with SnapHead i => snap s <=? i | _ => true end.
Lemma onward_b_ok s e : onward_b s e = true -> onward s e.
Proof. destruct e; cbn; auto. intros H. now apply Z.leb_le. Qed.
(** Two writes are committed and checkpointed, a third is in the log; a snapshot up to 7 starts
    to come and the replica crashes with a part of it. *)
Example c135_case_interrupted :
  let s := ends Raft (init Raft) [Journal; Step1; Step2; Journal; Step1; Step2; Switch; FlushOthers; Seal; Finish; Journal; SnapHead 7] in
  reach Raft onward s /\ dur s = [] /\ log s = 3 /\
  exists s', step Raft s Reboot = Next s' /\ rcv s' = Some 7 /\ ~ present s' 1.
Proof.
  cbv zeta. split; [|split; [|split]].
  1: { apply (reach_run Raft onward_b onward onward_b_ok); [apply reach_init|vm_compute; reflexivity]. }
  all: try (vm_compute; reflexivity).
  eexists. split; [vm_compute; reflexivity|]. split; [reflexivity|]. unfold present. cbn. tauto.
Qed.
(** It comes again and ends, the log is compacted, the replica crashes before the snapshot is
    applied, and goes on. *)
Example c135_case_done :
  let s := ends Raft (init Raft) [Journal; Step1; Step2; Journal; SnapHead 5; Reboot; SnapHead 6; SnapLast; Switch; FlushOthers; Seal; Finish; SnapCompact] in
  reach Raft onward s /\ tr s = 6 /\ log s = 6 /\ rcv s = None /\ dur s = [1; 2; 3; 4; 5; 6] /\ commit s = 0 /\
  exists s', step Raft s Reboot = Next s' /\ nxt s' = 7 /\ present s' 2.
Proof.
  cbv zeta. split; [|split; [|split; [|split; [|split; [|split]]]]].
  1: { apply (reach_run Raft onward_b onward onward_b_ok); [apply reach_init|vm_compute; reflexivity]. }
  all: try (vm_compute; reflexivity).
  eexists. split; [vm_compute; reflexivity|]. split; [reflexivity|]. unfold present. cbn. tauto.
Qed.
(** After a snapshot of three writes two more are committed; a restart commits just these again. *)
Example c135_case_once :
  let s := ends Raft (init Raft) [Journal; SnapHead 3; SnapLast; Switch; FlushOthers; Seal; Finish; SnapCompact; SnapApply; Journal; Journal; Step1; Step2; Step1; Step2; LoadDc; StoreDc] in
  reach Raft onward s /\ snap s = 3 /\ exists s', step Raft s Reboot = Next s' /\ cur s' = [4; 5].
Proof.
  cbv zeta. split; [|split; [vm_compute; reflexivity|]].
  1: { apply (reach_run Raft onward_b onward onward_b_ok); [apply reach_init|vm_compute; reflexivity]. }
  eexists. split; vm_compute; reflexivity.
Qed.

(** C93: a restarted raft replica never fails on a commit.  False: the commit position is read
    before the lock is taken and stored after a checkpoint stored a newer one; the replica then
    starts below its checkpoint, where no request exists. *)
Theorem c93_position_refuted : exists s, reach Raft free s /\ step Raft s Step1 = Crash.
Proof.
  exists (ends Raft (init Raft) [Journal; LoadDc; Step1; Step2; Switch; FlushOthers; Seal; StoreDc; Reboot]).
  split; [|vm_compute; reflexivity].
  apply (reach_run Raft free_b free free_b_ok); [apply reach_init|vm_compute; reflexivity].
Qed.
Print Assumptions c93_position_refuted.
(** It holds when no checkpoint reaches the replication service between the two steps. *)
Theorem c93_position_partial : forall s e, reach Raft calm s -> step Raft s e <> Crash.
Proof. exact calm_no_crash. Qed.
Print Assumptions c93_position_partial.
Definition calm_b (s : st) (e : ev) : bool :=
  match e with Seal => match ld s with None => true | Some _ => false end | _ => true end.
Lemma calm_b_ok s e : calm_b s e = true -> calm s e.
Proof. destruct e; cbn; auto. destruct (ld s); [discriminate|auto]. Qed.
Example c93_case :
  let s := ends Raft (init Raft) [Journal; LoadDc; Step1; StoreDc; Step2; Switch; FlushOthers; Seal; Finish; Journal; LoadDc; Step1; Step2; StoreDc; Reboot] in
  reach Raft calm s /\ ck s = 1 /\ dc s = 1 /\ log s = 2 /\ exists s', step Raft s Step1 = Next s'.
Proof.
  cbv zeta. split; [|split; [|split; [|split]]].
  1: { apply (reach_run Raft calm_b calm calm_b_ok); [apply reach_init|vm_compute; reflexivity]. }
  all: try (vm_compute; reflexivity). eexists. vm_compute. reflexivity.
Qed.

(** C49: after a restart of a solo device every write in its journal is in its state. *)
Definition replays (allowed : st -> ev -> Prop) (from : Z) : Prop := forall s s' l,
  reach Solo allowed s -> step Solo s Reboot = Next s' -> from <= l <= log s -> present s' l.
(** It holds for all writes but the first when no checkpoint starts in the middle of a commit
    and no commit makes a step between the start of a checkpoint and the flush of the
    replication service. *)
Theorem c49_replay_partial : replays (fun s e => whole_commits s e /\ quiet_checkpoints s e) 1.
Proof. exact solo_replay. Qed.
Print Assumptions c49_replay_partial.
Definition tame_b (s : st) (e : ev) : bool :=
  match e with
  | Switch => negb (mid s)
  | Step1 | Step2 => match ph s with Some (_, _, false) => false | _ => true end
  | _ => true
  end.
Lemma whole_b_ok s e : tame_b s e = true -> whole_commits s e.
Proof. destruct e; cbn; auto. destruct (mid s); [discriminate|auto]. Qed.
Lemma quiet_b_ok s e : tame_b s e = true -> quiet_checkpoints s e.
Proof. destruct e; cbn; auto; unfold in_window; destruct (ph s) as [[[c f] [|]]|]; intros H; try discriminate; intros []. Qed.
Example c49_case :
  let s := ends Solo (init Solo) [Journal; Step1; Step2; Journal; Step1; Step2; Switch; FlushOthers; Seal; Finish; Journal; Step1; Step2; Reboot; Journal; Step1] in
  reach Solo (fun s e => whole_commits s e /\ quiet_checkpoints s e) s /\ dur s = [0; 1] /\ log s = 3 /\ dc s = 1 /\
  exists s', step Solo s Reboot = Next s' /\ present s' 1 /\ present s' 2 /\ present s' 3.
Proof.
  cbv zeta. split; [|split; [|split; [|split]]].
  1: { apply (reach_run Solo tame_b); [intros s e H; split; [now apply whole_b_ok|now apply quiet_b_ok]|apply reach_init|vm_compute; reflexivity]. }
  all: try (vm_compute; reflexivity).
  eexists. split; [vm_compute; reflexivity|]. unfold present. cbn. ands; auto.
Qed.
(** False for the first write: the position in a new superblock is 0, which says that lsn 0 is
    committed. *)
Theorem c49_first_refuted : ~ replays (fun s e => whole_commits s e /\ quiet_checkpoints s e) 0.
Proof.
  intros H. set (s := ends Solo (init Solo) [Journal; Step1; Step2]).
  assert (P : present (ends Solo s [Reboot]) 0).
  { apply (H s); [|vm_compute; reflexivity|vm_compute; split; discriminate].
    apply (reach_run Solo tame_b); [intros s' e He; split; [now apply whole_b_ok|now apply quiet_b_ok]|apply reach_init|vm_compute; reflexivity]. }
  vm_compute in P. intuition.
Qed.
Print Assumptions c49_first_refuted.
(** False when a write commits between the start of a checkpoint and its end: its effects are
    in the next checkpoint, the position stored is already past it. *)
Theorem c49_window_refuted : ~ replays whole_commits 1.
Proof.
  intros H. set (s := ends Solo (init Solo) [Journal; Step1; Step2; Journal; Switch; Step1; Step2; FlushOthers; Seal]).
  assert (P : present (ends Solo s [Reboot]) 1).
  { apply (H s); [|vm_compute; reflexivity|vm_compute; split; discriminate].
    apply (reach_run Solo (fun s e => match e with Switch => negb (mid s) | _ => true end)); [|apply reach_init|vm_compute; reflexivity].
    intros s' e He. clear -He. destruct e; cbn in *; auto. destruct (mid s'); [discriminate|auto]. }
  vm_compute in P. intuition discriminate.
Qed.
Print Assumptions c49_window_refuted.
(** False when a checkpoint falls between the advance of the position and the call of the
    listener. *)
Theorem c49_order_refuted : ~ replays quiet_checkpoints 1.
Proof.
  intros H. set (s := ends Solo (init Solo) [Journal; Step1; Step2; Journal; Step1; Switch; FlushOthers; Seal]).
  assert (P : present (ends Solo s [Reboot]) 1).
  { apply (H s); [|vm_compute; reflexivity|vm_compute; split; discriminate].
    apply (reach_run Solo (fun s e => match e with Step1 | Step2 => match ph s with Some (_, _, false) => false | _ => true end | _ => true end)); [|apply reach_init|vm_compute; reflexivity].
    intros s' e He. clear -He. destruct e; cbn in *; auto; unfold in_window; destruct (ph s') as [[[c f] [|]]|]; try discriminate; intros []. }
  vm_compute in P. intuition discriminate.
Qed.
Print Assumptions c49_order_refuted.
