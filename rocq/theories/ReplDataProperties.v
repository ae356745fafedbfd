(** * Properties of the delivery of data to a follower's request (C50, C96, C97). *)
From Coq Require Import NArith List Bool Lia.
From Verif Require Import Base ReplDataModel ReplDataSpec ReplDataProofs.
Import ListNotations.

(** C50: however many deliveries and error handlers run, in whatever order their steps come,
    no promise is fulfilled twice, at most one delivery is accepted and at most one writes the
    blocks; when all have finished and there was a delivery, exactly one was accepted, each
    promise was fulfilled once and the blocks hold that delivery's data. *)
Theorem c50_accepted_once : forall l sched, begins l -> exists s, run false false (start l) sched = Some s /\
  accepted (ths s) <= 1 /\ recv s <= 1 /\ wrote s <= 1 /\ length (dev s) <= 1 /\
  (finished (ths s) -> deliveries l -> accepted (ths s) = 1 /\ recv s = 1 /\ wrote s = 1 /\ length (dev s) = 1).
Proof.
  intros l sched B. destruct (run_ok false false sched (start l)) as (s & E & I).
  { apply inv_start; [exact B|discriminate]. }
  exists s. split; [exact E|]. exact (once_of_inv l s sched B E I).
Qed.
Print Assumptions c50_accepted_once.
(** Three deliveries and two error handlers with lost exchanges. *)
Definition case50 : list (nat * bool) :=
  [(1, false); (0, false); (1, false); (2, false); (1, false); (2, false); (4, false); (4, true); (2, true); (4, false); (1, false); (2, false);
   (1, false); (1, false); (2, false); (2, false); (1, false); (3, false); (3, false); (2, false); (2, false); (2, false); (5, false); (4, false); (1, false); (1, false)].
Example c50_case : begins [D0; D0; D0; E0; E0] /\ deliveries [D0; D0; D0; E0; E0] /\
  exists s, run false false (start [D0; D0; D0; E0; E0]) case50 = Some s /\ ths s = [DAcc; DRej; DRej; EDone; EDone] /\ dev s = [0] /\ recv s = 1.
Proof.
  split; [intros p [<-|[<-|[<-|[<-|[<-|[]]]]]]; auto|]. split; [now left|]. eexists. split; [vm_compute; reflexivity|]. cbn. ands; reflexivity.
Qed.

(** C97: data that the listener already has is never delivered a second time, and no promise is
    fulfilled twice.  False: the bit that lets a delivery go on is set before the bit that makes
    it a duplicate. *)
Theorem c97_committed_refuted : exists sched, run true false (start [D0]) sched = None.
Proof. exists [(0, false); (1, false); (1, false); (1, false); (1, false); (0, false); (0, false); (0, false); (0, false)]. vm_compute. reflexivity. Qed.
Print Assumptions c97_committed_refuted.
(** It holds when deliveries wait for the allocating thread to leave its critical section. *)
Theorem c97_committed_partial : forall l sched, begins l -> exists s, run true true (start l) sched = Some s /\
  accepted (ths s) = 0 /\ dev s = [] /\ recv s <= 1 /\ wrote s <= 1.
Proof.
  intros l sched B. destruct (run_ok true true sched (start l)) as (s & E & I).
  { apply inv_start; [exact B|reflexivity]. }
  exists s. split; [exact E|]. exact (none_of_inv s I).
Qed.
Print Assumptions c97_committed_partial.
Example c97_case : exists s, run true true (start [D0; D0]) ((1, false) :: repeat (0, false) 6 ++ [(1, false); (2, false); (1, false); (2, false)]) = Some s /\
  ths s = [DRej; DRej] /\ recv s = 1 /\ wrote s = 1.
Proof. eexists. split; [vm_compute; reflexivity|]. auto. Qed.

(** C96: a delivery never writes to blocks that were given back.  False: a timeout gives the
    blocks back, and a delivery that already has the request is then accepted. *)
Theorem c96_late_refuted : exists sched s, run false false (start [D0; E0]) sched = Some s /\
  late s = true /\ accepted (ths s) = 1.
Proof.
  exists [(0, false); (1, false); (2, false); (2, false); (2, false); (1, false); (1, false); (1, false); (1, false); (1, false); (1, false)].
  eexists. split; [vm_compute; reflexivity|]. auto.
Qed.
Print Assumptions c96_late_refuted.
