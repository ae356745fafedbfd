(** * C25, C26: checkpoints. *)
From Coq Require Import ZArith List Bool Lia Arith.
From Verif Require Import Base CPModel CPSpec CPProofs.
Import ListNotations.
Open Scope Z_scope.

(** ** C25 *)
(** While a checkpoint is flushed nobody is inside it, and nobody gets there. *)
Theorem c25_nobody_inside last s c : reached last s -> In c (m_flushes s) -> ~ inside c s /\ c < m_cur s.
Proof.
  intros HR HF. apply reached_shape in HR. unfold inside. shapes HR; flat; try destruct HF as [<-|[]]; try destruct HF.
  split; [|lia]. intros [HI|HI]; eapply other_in in HI; eauto; lia.
Qed.
(** When the consumers are asked to flush, everybody has left. *)
Theorem c25_start_after_exit last s a s' c : reached last s -> allowed s a -> step s a = Ok s' -> m_log s' = m_log s ++ [EStart c] ->
  ~ inside c s /\ ~ inside c s'.
Proof.
  intros HR HA HE HL. assert (HR' : reached last s') by (econstructor; eauto).
  destruct (step_moves s a s' (reached_shape _ _ HR) HE) as [new HM].
  pose proof (mv_log _ _ _ _ HM) as HL2. rewrite HL in HL2. apply app_inv_head in HL2. subst new.
  destruct (mv_core _ _ _ _ HM) as [(H & _)|[(x & H & _ & HF & _)|(x & H & _)]]; cbn in H; try discriminate. injection H as <-.
  destruct (c25_nobody_inside last s' c HR') as [H _]; [rewrite HF; now left|]. split; [|exact H].
  (* the step itself lets nobody in or out *)
  pose proof (quiet_steps s a s' (reached_shape _ _ HR) HE) as HQ.
  assert (HNQ : ~ quiet s s'). { intros (_ & HQ' & _). rewrite HQ' in HL. apply (f_equal (@length _)) in HL. rewrite app_length in HL. cbn in HL. lia. }
  destruct a; try (exfalso; apply HNQ; exact HQ); intro HI; apply H; cbn [step] in HE.
  - unfold exit2 in HE. destruct (take _ (m_exits s)); [|discriminate]. destruct (get _ (m_cps s)) as [p|]; [|discriminate].
    injection HE as <-. destruct (c_st p); exact HI.
  - unfold trigger in HE. destruct (m_trig s); [discriminate|]. destruct (m_inflush (say s _)); [destruct (_ && _); injection HE as <-; exact HI|].
    destruct (get _ _) as [p|]; [|discriminate]. destruct (c_st p); try discriminate; injection HE as <-; exact HI.
  - unfold tprepare in HE. destruct (m_trig s) as [[]|]; try discriminate. destruct (get _ _); [|discriminate]. injection HE as <-. exact HI.
  - unfold tswap in HE. destruct (m_trig s) as [[]|]; try discriminate. injection HE as <-. exact HI.
  - unfold flushed in HE. destruct (take _ _); [|discriminate]. destruct (get _ _) as [p|]; [|discriminate]. destruct (c_st p); try discriminate. injection HE as <-. exact HI.
  - unfold done in HE. destruct (m_trig s); [discriminate|]. destruct (find _ _) as [[? ?]|]; [|discriminate]. injection HE as <-. exact HI.
  - unfold b2b in HE. destruct (m_b2b s); [discriminate|]. unfold trigger in HE. destruct (m_trig _); [discriminate|].
    destruct (m_inflush (say _ _)); [destruct (_ && _); injection HE as <-; exact HI|].
    destruct (get _ _) as [p|]; [|discriminate]. destruct (c_st p); try discriminate; injection HE as <-; exact HI.
Qed.
(** No assertion fails and no deleted checkpoint is used. *)
Theorem c25_no_crash last s a : reached last s -> allowed s a -> step s a <> Crash.
Proof. intros HR HA HE. pose proof (step_good s a (reached_shape _ _ HR) HA) as HG. rewrite HE in HG. exact HG. Qed.

(** ** C26 *)
(** Checkpoints are flushed and saved one after the other, each once, numbers without gaps;
    at most the last one is still being flushed. *)
Theorem c26_one_at_a_time last s : reached last s ->
  (length (m_flushes s) <= 1)%nat /\
  exists k, core (m_log s) = rounds (last + 1) k ++ map EStart (m_flushes s) /\ m_last s = last + Z.of_nat k /\
            (forall c, In c (m_flushes s) -> c = last + 1 + Z.of_nat k).
Proof.
  intro HR. pose proof (reached_logs _ _ HR) as [L1 L2 _ _ _ _ _]. apply reached_shape in HR. split.
  - shapes HR; cbn; lia.
  - exists (Z.to_nat (m_last s - last)). split; [exact L2|]. split; [lia|]. intros c HI. shapes HR; flat; try destruct HI as [<-|[]]; try destruct HI. lia.
Qed.
(** Who is told that a checkpoint is done triggered at or before it, and it is in the superblock. *)
Theorem c26_told_is_true last s pre post w t : reached last s -> m_log s = pre ++ ETold w t :: post ->
  In (ESaved t) pre /\ (exists c, In (ECall w c) (m_log s)) /\ (forall c, In (ECall w c) (m_log s) -> c <= t).
Proof.
  intros HR HL. pose proof (reached_logs _ _ HR) as [_ _ _ L4 _ _ L7]. split; [eauto|]. apply L4. rewrite HL. apply in_or_app. right. now left.
Qed.
(** A forced trigger is not lost: at any later time the threads inside can go on by themselves
    until its caller is told about a checkpoint not older than the one it triggered. *)
Theorem c26_forced_is_served last s w sd s' s2 : reached last s -> allowed s (ATrig w true sd) -> m_shut s = false \/ sd = true ->
  step s (ATrig w true sd) = Ok s' -> leads s' s2 ->
  exists s3 t, settles s2 s3 /\ m_cur s <= t /\ In (ETold w t) (m_log s3).
Proof.
  intros HR HA HF HE HL. pose proof (reached_shape _ _ HR) as HS. pose proof (step_good _ _ HS HA) as HG. rewrite HE in HG. cbn [good] in HG.
  assert (HW : In (w, m_cur s) (waitlist s')).
  { cbn [step] in HE. unfold trigger in HE. destruct (m_trig s) eqn:ET; [discriminate|]. destruct s as [cps cur infl shu pend pw last' trg rcu inn ex fl dn bb lg].
    flat. destruct infl.
    - replace (true && (negb shu || sd)) with true in HE by (destruct HF as [->| ->]; [reflexivity|rewrite orb_true_r; reflexivity]). injection HE as <-.
      unfold waitlist. flat. rewrite !in_app_iff, at_in. left. split; [|reflexivity]. apply in_or_app. right. now left.
    - destruct (get cur cps) as [p|]; [|discriminate]. destruct (c_st p); try discriminate; injection HE as <-;
      unfold waitlist; flat; rewrite !in_app_iff, !at_in; right; left; (split; [now left|reflexivity]). }
  destruct (waiter_kept _ _ w _ HL HG HW) as [(t & HT & HI)|(t & HT & HI)].
  - destruct (waiter_served s2 w t (leads_shape _ _ HL HG) HI) as (s3 & t' & H1 & H2 & H3). exists s3, t'. split; [exact H1|]. split; [lia|exact H3].
  - exists s2, t. split; [constructor|]. auto.
Qed.

(** ** Runs *)
Definition allowed_b (s : mgr) (a : act) : bool :=
  match a with
  | ATrig w _ _ => forallb (fun e => match e with ECall x _ => negb (Nat.eqb x w) | _ => true end) (m_log s)
  | ATPrepare => match m_trig s with Some (TEntered c _) => negb (existsb (Z.eqb c) (m_exits s)) | _ => true end
  | _ => true
  end.
Lemma allowed_ok s a : allowed_b s a = true -> allowed s a.
Proof.
  destruct a; cbn; try exact (fun _ => I).
  - intros H [c HC]. rewrite forallb_forall in H. apply H in HC. cbn in HC. rewrite Nat.eqb_refl in HC. discriminate.
  - intros H c w HT HI. rewrite HT in H. apply existsb_in in HI. rewrite HI in H. discriminate.
Qed.
Fixpoint run (chk : bool) (s : mgr) (l : list act) : res :=
  match l with
  | [] => Ok s
  | a :: r => if negb chk || allowed_b s a then match step s a with Ok s' => run chk s' r | x => x end else Stop
  end.
Lemma run_reached last l : forall s s', reached last s -> run true s l = Ok s' -> reached last s'.
Proof.
  induction l as [|a l IH]; intros s s' HR H; cbn in H; [injection H as <-; exact HR|]. destruct (allowed_b s a) eqn:EA; [|discriminate].
  destruct (step s a) as [| |s1] eqn:ES; try discriminate. eapply IH; [|exact H]. econstructor; eauto using allowed_ok.
Qed.
Lemma run_any last l : forall s s', reached_any last s -> run false s l = Ok s' -> reached_any last s'.
Proof.
  induction l as [|a l IH]; intros s s' HR H; cbn in H; [injection H as <-; exact HR|].
  destruct (step s a) as [| |s1] eqn:ES; try discriminate. eapply IH; [|exact H]. econstructor; eauto.
Qed.

(** IO inside the checkpoint when it is triggered, IO in the next one, forced and unforced
    triggers during the flush, and one that comes before the back to back trigger. *)
Definition busy : list act :=
  [AEnter1; AEnter2 5; AEnter1; ATrig 1 false false; AEnter2 5; ARef 5; AExit1 5; ATPrepare; AEnter1; ATSwap; AEnter2 5; ATSync; AEnter1; AEnter2 6;
   AExit1 5; AExit1 5; ATrig 2 true false; AExit1 5; ATrig 3 false false; AExit1 5; AExit2 5; ATrig 4 true false].
Example busy_flushing : exists s, run true (boot 4) busy = Ok s /\ reached 4 s /\ m_flushes s = [5] /\ m_in s = [6] /\ m_pwait s = [2; 4]%nat.
Proof.
  eexists. split; [vm_compute; reflexivity|]. split; [apply (run_reached 4 busy (boot 4)); [constructor|vm_compute; reflexivity]|]. vm_compute. auto.
Qed.
Definition rest : list act :=
  [AFlushed 5; ADone 5; ATrig 7 false false; ATPrepare; ATSwap; ATSync; AB2B; AExit1 6; AExit1 6; AExit2 6; AFlushed 6; ADone 6].
Example busy_log : exists s, run true (boot 4) (busy ++ rest) = Ok s /\
  m_log s = [ECall 1 5; ECall 2 6; ECall 3 6; ERefused 3; EStart 5; ECall 4 6; ESaved 5; ETold 1 5; ECall 7 6; EStart 6; ESaved 6; ETold 2 6; ETold 4 6; ETold 7 6] /\
  m_inflush s = false.
Proof. eexists. split; [vm_compute; reflexivity|]. vm_compute. auto. Qed.
Example trigger_possible : exists s s', run true (boot 4) busy = Ok s /\ allowed s (ATrig 9 true false) /\ m_shut s = false /\ step s (ATrig 9 true false) = Ok s'.
Proof.
  eexists _, _. split; [vm_compute; reflexivity|]. split; [apply allowed_ok; vm_compute; reflexivity|]. split; vm_compute; reflexivity.
Qed.
Example start_possible : exists s s', run true (boot 4) (firstn 20 busy) = Ok s /\ allowed s (AExit2 5) /\ step s (AExit2 5) = Ok s' /\ m_log s' = m_log s ++ [EStart 5].
Proof. eexists _, _. split; [vm_compute; reflexivity|]. split; [exact I|]. split; vm_compute; reflexivity. Qed.

(** ** Without [calm] *)
(** A thread drops the last reference of checkpoint 0, and before it looks at the status the
    checkpoint is triggered, another thread enters, and the status becomes "prepare": the first
    thread starts the flush with the other one inside. *)
Theorem c25_flush_with_io_inside_refuted : exists s, reached_any (-1) s /\ In 0 (m_flushes s) /\ In 0 (m_in s).
Proof.
  set (l := [AEnter1; AEnter2 0; AExit1 0; ATrig 1 false false; AEnter1; AEnter2 0; ATPrepare; AExit2 0]).
  eexists. split; [apply (run_any (-1) l (boot (-1))); [constructor|vm_compute; reflexivity]|]. vm_compute. auto.
Qed.
(** Or it looks at the status of a checkpoint that has been flushed and deleted. *)
Theorem c25_use_after_delete_refuted : exists s, reached_any (-1) s /\ step s (AExit2 0) = Crash.
Proof.
  set (l := [AEnter1; AEnter2 0; AExit1 0; ATrig 1 false false; ATPrepare; ATSwap; ATSync; AExit1 0; AExit2 0; AFlushed 0]).
  eexists. split; [apply (run_any (-1) l (boot (-1))); [constructor|vm_compute; reflexivity]|]. vm_compute. reflexivity.
Qed.

Print Assumptions c25_nobody_inside.
Print Assumptions c25_start_after_exit.
Print Assumptions c25_no_crash.
Print Assumptions c26_one_at_a_time.
Print Assumptions c26_told_is_true.
Print Assumptions c26_forced_is_served.
Print Assumptions c25_flush_with_io_inside_refuted.
Print Assumptions c25_use_after_delete_refuted.
