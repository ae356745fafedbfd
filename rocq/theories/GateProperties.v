(** Properties C160, C161: when a leader is open to clients. *)
From Coq Require Import List Arith Lia Bool.
From Verif Require Import GateModel GateSpec GateProofs.
Import ListNotations.

(** ** C160: after the call back *)

(** A replica that has been told that it is leader, and not since that it is a
    follower, says it is ready only when all that was in its log then is committed;
    though the two numbers are loaded at different times. *)
Theorem c160_ready : forall n c k l s, c <= n -> run (start n c k) l = Ok s -> ready c l.
Proof.
  intros n c k l s H R l1 v l2 i l3 -> NF.
  rewrite run_app in R. destruct (run (start n c k) l1) as [s1| |] eqn:R1; try discriminate.
  assert (I1 := run_inv _ _ _ (start_inv n c k H) R1).
  cbn [run] in R. destruct (step s1 (CbLeader v)) as [s2| |] eqn:E2; try discriminate.
  assert (I2 := step_inv _ _ _ I1 E2).
  assert (G2 : gate s2 = v).
  { cbn [step] in E2. destruct (pend s1); try discriminate. destruct (v =? log s1); [|discriminate].
    destruct (gate s1 <=? v); [|discriminate]. injection E2 as <-. reflexivity. }
  rewrite run_app in R. destruct (run s2 l2) as [s3| |] eqn:R3; try discriminate.
  assert (I3 := run_inv _ _ _ I2 R3). assert (G3 := run_gate _ _ _ R3 NF).
  cbn [run] in R. destruct (step s3 (Answer i true)) as [s4| |] eqn:E4; try discriminate.
  assert (A := answer_com _ _ _ I3 E4).
  assert (C1 := run_com _ _ _ R1). assert (C2 := step_com _ _ _ E2). assert (C3 := run_com _ _ _ R3).
  rewrite commits_app. cbn in C1, C2. lia.
Qed.
Print Assumptions c160_ready.

(** The release assertion in become_leader_cb does not fail. *)
Theorem c160_no_abort : forall n c k l, c <= n -> run (start n c k) l <> Abort.
Proof. intros n c k l H. apply run_ok. now apply start_inv. Qed.
Print Assumptions c160_no_abort.

(** The gate opens: once what is in the log is committed, the answer is yes. *)
Theorem c160_opens : forall n c k l s i, c <= n -> run (start n c k) l = Ok s -> nth_error (asks s) i = Some None ->
  exists m s', run s (repeat Commit m ++ [Load i; Answer i true]) = Ok s'.
Proof.
  intros n c k l s i H R N. assert (I := run_inv _ _ _ (start_inv n c k H) R).
  exists (log s - com s). eexists. rewrite run_app, commit_some by (pose proof (i_com _ I); lia).
  cbn [run step lead pend log com gate asks]. rewrite N. cbn [asks gate].
  rewrite (upd_same _ _ _ _ N).
  assert (X : gate s <=? com s + (log s - com s) = true).
  { apply Nat.leb_le. pose proof (i_gate _ I). lia. }
  rewrite X. reflexivity.
Qed.
Print Assumptions c160_opens.

(** A leader that loses what it did not commit, and leads again. *)
Definition twice : list ev :=
  [Elect 9; Append; CbLeader 10; Load 0; Answer 0 false; Load 1; Demote; CbFollower; Cut 6; Append; Elect 7;
   CbLeader 7; Answer 1 false; Commit; Commit; Load 0; Answer 0 true; Elect 7; CbLeader 7; Append].
Example twice_ok :
  match run (start 9 5 2) twice with Ok s => com s = 7 /\ gate s = 7 /\ nth_error (asks s) 0 = Some None | _ => False end.
Proof. vm_compute. repeat split. Qed.

(** ** C161: from the election on *)

(** Between the election and the call back the gate is that of a follower, 0: the
    replica says that it is leader and that it is ready, with any number of
    entries of earlier leaders not committed. *)
Theorem c161_window_refuted : forall n c k, c < n ->
  exists l s, run (start n c (S k)) l = Ok s /\ lead s = true /\ com s = c /\ ~ ready_full c l.
Proof.
  intros n c k H. exists [Elect n; Load 0; Answer 0 true]. eexists.
  split; [|split; [|split]].
  - cbn [run step start pend log lead com gate asks repeat nth_error upd]. rewrite Nat.eqb_refl.
    cbn [run step pend log lead com gate asks nth_error upd Nat.leb eqb]. reflexivity.
  - reflexivity.
  - reflexivity.
  - intros F. specialize (F [] n [Load 0] 0 [] eq_refl). cbn in F.
    assert (X : ~ (Load 0 = Demote \/ False)) by (intros [E|[]]; discriminate). specialize (F X). lia.
Qed.
Print Assumptions c161_window_refuted.

(** And a follower is always ready. *)
Theorem c161_follower_refuted : forall n c k, exists s, run (start n c (S k)) [Load 0; Answer 0 true] = Ok s /\ lead s = false.
Proof. intros n c k. eexists. split; reflexivity. Qed.
Print Assumptions c161_follower_refuted.
