(** Properties C158, C159: quiescing a replica. *)
From Coq Require Import List Arith Lia Bool.
From Verif Require Import QuiesceModel QuiesceSpec QuiesceProofs.
Import ListNotations.

(** ** C158: no requests while quiet *)

(** From the return of quiesce_reqs until resume_accepting_reqs no request is
    made, whatever the number of requests; if a store is seen by all before the
    next load of its thread. *)
Theorem c158_quiet : forall m n l s, m <> TSO -> run m (start n 1) l = Some s -> quiet l.
Proof.
  intros m n l s NT R l1 j l2 i l3 ->. unfold has_resume.
  rewrite run_app in R. destruct (run m (start n 1) l1) as [s1|] eqn:R1; [|discriminate].
  destruct (run_inv _ _ NT _ _ _ (start_inv m n) R1) as (q1 & I1).
  cbn [run] in R. destruct (step m s1 (Look j true)) as [s2|] eqn:E2; [|discriminate].
  destruct (step_inv _ _ _ _ _ NT I1 E2) as (q2 & I2 & M2). cbn in M2. destruct M2 as [_ M2].
  rewrite run_app in R. destruct (run m s2 l2) as [s3|] eqn:R3; [|discriminate].
  destruct (stays_quiet _ _ NT _ _ _ I2 M2 R3) as [X|(q3 & I3 & A3)]; [exact X|].
  cbn [run step] in R. destruct (i_quiet _ _ _ I3 A3) as [_ P]. specialize (P i).
  destruct (nth_error (reqs s3) i) as [[]|]; congruence.
Qed.
Print Assumptions c158_quiet.

(** When it returns, every request begun before is over (in every mode, with any
    number of callers). *)
Theorem c158_complete : forall m n k l s, run m (start n k) l = Some s -> complete l.
Proof.
  intros m n k l s R l1 j l2 ->. rewrite run_app in R.
  destruct (run m (start n k) l1) as [s1|] eqn:R1; [|discriminate].
  assert (L := run_ledger _ _ _ _ (start_cnt n k) R1). cbn [run step] in R.
  destruct (nth_error (callers s1) j) as [q|]; [|discriminate].
  destruct (at_q q); try discriminate.
  destruct (may_look m q && eqb true (cnt s1 =? 0)) eqn:B; [|discriminate].
  apply andb_true_iff in B. destruct B as [_ B]. apply eqb_prop in B. symmetry in B. apply Nat.eqb_eq in B.
  cbn [cnt start] in L. lia.
Qed.
Print Assumptions c158_complete.

(** After resume_accepting_reqs requests are taken again. *)
Theorem c158_accepts : forall n l s, run SC (start n 1) l = Some s -> accepts l.
Proof.
  intros n l s R l1 j l2 i l3 ->. unfold has_store. assert (NT : SC <> TSO) by discriminate.
  rewrite run_app in R. destruct (run SC (start n 1) l1) as [s1|] eqn:R1; [|discriminate].
  destruct (run_inv _ _ NT _ _ _ (start_inv SC n) R1) as (q1 & I1).
  cbn [run] in R. destruct (step SC s1 (Resume j)) as [s2|] eqn:E2; [|discriminate].
  destruct (step_inv _ _ _ _ _ NT I1 E2) as (q2 & I2 & M2). cbn in M2. destruct M2 as [_ M2].
  rewrite run_app in R. destruct (run SC s2 l2) as [s3|] eqn:R3; [|discriminate].
  destruct (stays_out _ _ NT _ _ _ I2 M2 R3) as [X|(q3 & I3 & A3)]; [exact X|].
  assert (F := i_last _ _ _ I3). rewrite (i_sc _ _ _ I3 eq_refl), A3 in F. cbn in F.
  cbn [run step] in R. rewrite F in R. cbn [negb eqb] in R.
  destruct (nth_error (reqs s3) i) as [[]|]; discriminate.
Qed.
Print Assumptions c158_accepts.

(** quiesce_reqs can always return: the requests that are in progress get to
    their end, in every mode and with any number of callers. *)
Theorem c158_returns : forall m n k l s j q,
  run m (start n k) l = Some s -> nth_error (callers s) j = Some q -> at_q q = Waiting ->
  exists l' s', Forall finishing l' /\ run m s (l' ++ [Look j true]) = Some s'.
Proof.
  intros m n k l s j q R N A.
  destruct (finish m _ s (le_n _)) as (l1 & s1 & F1 & R1 & Z1 & C1).
  assert (N1 : nth_error (callers s1) j = Some q) by congruence.
  destruct (drain_all m j _ s1 q N1 eq_refl) as (l2 & s2 & F2 & R2 & Q2 & K2 & N2).
  assert (R12 : run m (start n k) (l ++ l1) = Some s1) by (rewrite run_app, R; exact R1).
  assert (K1 := run_cnt _ _ _ _ (start_cnt n k) R12). rewrite (idle_cnt _ Z1) in K1.
  exists (l1 ++ l2). eexists. split; [apply Forall_app; now split|].
  rewrite run_app, run_app, R1, R2. cbn [run step]. rewrite N2. cbn [at_q]. rewrite A.
  rewrite K2, K1. unfold may_look. cbn [queue]. destruct m; reflexivity.
Qed.
Print Assumptions c158_returns.

(** A run: one request is in progress, one is refused, one comes after. *)
Definition good : list ev :=
  [Enter 0; Check 0 true; Store 0; Look 0 false; Enter 1; Check 1 false; Init 0; Leave 0; Look 0 false; Leave 1;
   Look 0 true; Enter 2; Check 2 false; Leave 2; Resume 0; Enter 1; Check 1 true; Init 1].
Definition fenced : list ev :=
  [Store 0; Enter 0; Check 0 true; Drain 0; Look 0 false; Init 0; Leave 0; Look 0 true; Enter 1; Check 1 false;
   Resume 0; Drain 0].

Example good_ok :
  option_map cnt (run SC (start 3 1) good) = Some 1 /\ option_map cnt (run Fence (start 3 1) fenced) = Some 1 /\
  option_map (fun s => map at_q (callers s)) (run SC (start 3 2) (firstn 4 good)) = Some [Waiting; Out].
Proof. vm_compute. repeat split. Qed.

(** ** C159: the code as written *)

(** The flag is stored with release order and the count loaded with acquire order.
    On x86 (and in C++) the load may be done before others see the store: then
    quiesce_reqs returns, and a request that sees the flag down goes on to
    allocate. *)
Theorem c159_release_refuted : forall n, exists l s, run TSO (start (S n) 1) l = Some s /\ ~ quiet l.
Proof.
  intros n. exists [Store 0; Look 0 true; Enter 0; Check 0 true; Drain 0; Init 0]. eexists. split; [reflexivity|].
  intros Q. destruct (Q [Store 0] 0 [Enter 0; Check 0 true; Drain 0] 0 [] eq_refl) as [j X].
  cbn in X. intuition discriminate.
Qed.
Print Assumptions c159_release_refuted.

(** Calls do not nest: the flag has no count.  When two callers quiesce, the
    resume of one ends the quiet of the other. *)
Theorem c159_two_refuted : forall n, exists l s, run SC (start (S n) 2) l = Some s /\ ~ quiet_mine l.
Proof.
  intros n. exists [Store 0; Look 0 true; Store 1; Look 1 true; Resume 1; Enter 0; Check 0 true; Init 0].
  eexists. split; [reflexivity|].
  intros Q. specialize (Q [Store 0] 0 [Store 1; Look 1 true; Resume 1; Enter 0; Check 0 true] 0 [] eq_refl).
  cbn in Q. intuition discriminate.
Qed.
Print Assumptions c159_two_refuted.
