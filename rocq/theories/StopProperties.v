(** * Shutdown of services: C145-C148. *)
From Coq Require Import ZArith List Bool Lia.
From Verif Require Import StopModel StopSpec StopProofs StopProofs2 StopProofs3.
Import ListNotations.
Open Scope Z_scope.

Local Ltac pick I := cbn [In app repeat] in I; repeat (destruct I as [I|I]; [first [discriminate I|injection I as <-]|]); try contradiction.
Lemma seen {A} (f : st -> A) l v : option_map f (run init l) = Some v -> exists s, run init l = Some s /\ f s = v.
Proof. destruct (run init l) as [s|]; cbn; intros E; [|discriminate]. injection E as E. eauto. Qed.
Lemma inv_init : inv (fun _ => 0) init.
Proof. split; [constructor|reflexivity]. Qed.

(** ** C145: stop() comes to its end *)
(** However calls and stops interleave, no count is ever below zero, and once no call is under
    way every count is zero. *)
Theorem c145_counts : forall l s c, calls tidy l -> run init l = Some s -> 0 <= pnd s c /\ (thr s = [] -> pnd s c = 0).
Proof.
  intros l s c C E. destruct (inv_run _ l _ _ inv_init (tidy_new l C) E) as (F & P). rewrite P. pose proof (owe_nonneg c _ F). split; [lia|].
  intros ->. reflexivity.
Qed.
(** From every state, when the calls under way run on, stop() of every stopping component finds
    no request pending. *)
Theorem c145_stop_ends : forall l s c, calls tidy l -> run init l = Some s -> stp s c = true ->
  exists l' s', runs_only l' /\ run s (l' ++ [ERet c]) = Some s' /\ ret s' c = true.
Proof.
  intros l s c C E S. destruct (finish _ s (le_n _)) as (l' & s1 & R & E1 & T & S1 & _).
  assert (A : run init (l ++ l') = Some s1) by (rewrite run_app, E; exact E1).
  assert (C' : calls tidy (l ++ l')).
  { intros x I. apply in_app_or in I. destruct I as [I|I]; auto. destruct (R _ I) as (i & Q). discriminate. }
  destruct (c145_counts _ _ c C' A) as (_ & Z). specialize (Z T).
  assert (B : run s1 [ERet c] = Some (St (stp s1) (pnd s1) (upd (ret s1) c true) (thr s1) (bad s1) (out s1))).
  { cbn [run step]. rewrite S1, S, Z. reflexivity. }
  exists l'. eexists. split; [exact R|]. split.
  - rewrite run_app, E1. exact B.
  - cbn. apply upd_eq.
Qed.

(** ** C146: calls that end in an error give back their count *)
(** Not on these paths: destroy_log_dev and remove_log_store of an unknown log device, a read
    of the log that fails, write_and_flush on a thread that may not block, async_write of
    buffers of another size.  After any of them stop() of that component waits for ever. *)
Theorem c146_leak_refuted : forall l s c p l2 s', calls tidy l -> run init l = Some s -> leaky c p -> stp s c = false -> calls tidy l2 ->
  run s (ENew p :: ERun (length (thr s)) :: ERun (length (thr s)) :: l2) = Some s' -> ret s' c = false /\ 1 <= pnd s' c.
Proof.
  intros l s c p l2 s' C E L S C2 E2.
  pose proof (inv_run _ l _ _ inv_init (tidy_new l C) E) as I.
  change (ENew p :: ERun (length (thr s)) :: ERun (length (thr s)) :: l2) with ([ENew p; ERun (length (thr s)); ERun (length (thr s))] ++ l2) in E2.
  rewrite run_app in E2. destruct (run s [ENew p; ERun (length (thr s)); ERun (length (thr s))]) as [s2|] eqn:E3; [|discriminate].
  destruct (leak_inv s c p s2 I L S E3) as (I2 & R2).
  destruct (kept (fun d => if Nat.eqb d c then 1 else 0) c l2) with (s := s2) (s' := s') as (A & B); auto.
  - cbv beta. rewrite Nat.eqb_refl. lia.
  - now apply tidy_new.
  - split; auto. apply B. rewrite R2. destruct (ret s c) eqn:R; auto.
    assert (K : forall d, ret init d = true -> stp init d = true) by discriminate. rewrite (rets _ _ _ K E c R) in S. discriminate.
Qed.
(** The path is there: it takes place, and stop() is asked for afterwards. *)
Example c146_case : exists s, run init [ENew l_missing; ERun 0; ERun 0; ERun 0; ERun 0; EStop LogSvc] = Some s /\ thr s = [] /\ pnd s LogSvc = 1 /\ step s (ERet LogSvc) = None.
Proof. eexists. split; [reflexivity|]. repeat split. Qed.

(** ** C147: after stop() nothing runs in the component *)
(** For calls that count themselves before they look at the flag, and use the component only
    between count and return. *)
Theorem c147_count_first_partial : forall c l s, calls (covered false c) l -> run init l = Some s -> ~ In c (bad s).
Proof.
  intros c l s C E. assert (S : safe false c s); [|apply S].
  eapply (safe_run false c l init s); [|apply inv_init| |discriminate|exact E].
  - split; [cbn; constructor|intros []].
  - apply Forall_forall. intros e I. destruct e; cbn; auto.
Qed.
(** For calls that look at the flag first: if none stands between look and count when stop()
    sets the flag. *)
Theorem c147_calm_partial : forall c l s, calls (covered true c) l -> calm_stops init l -> run init l = Some s -> ~ In c (bad s).
Proof.
  intros c l s C K E. assert (S : safe true c s); [|apply S].
  eapply (safe_run true c l init s); [|apply inv_init| |intros _; exact K|exact E].
  - split; [cbn; constructor|intros []].
  - apply Forall_forall. intros e I. destruct e; cbn; auto.
Qed.
(** Which calls these are. *)
Example c147_covered : covered false ReplSvc g_gc /\ covered true DataSvc d_alloc /\ (forall n, covered true DataSvc (d_commit n)) /\
  (forall id f, within f -> covered true LogSt (s_append id f)) /\ (forall id f, within f -> covered true LogDv (s_write id f)) /\
  covered true LogDv v_call /\ covered true IdxSvc i_call /\ covered true IdxTbl t_call /\ covered true Repl (r_call d_alloc) /\
  (forall b, within b -> covered true LogSvc (l_call b)).
Proof.
  assert (M : forall n c, within (many n [Use c])) by (intros n c; induction n; [constructor|apply (w_both [Use c]); [constructor|auto]]).
  assert (U : forall c b, within b -> within (Use c :: b)) by (intros c b B; apply (w_both [Use c]); [constructor|auto]).
  assert (A : forall id f, within f -> within (v_append id f)) by (intros id f F; apply w_guard, U, (w_both [Note (Accepted id)]); [constructor|auto]).
  split; [apply (v_first false ReplSvc [Use ReplSvc]); constructor|].
  split; [apply v_guard; auto; constructor|].
  split; [intros n; apply v_guard; auto|].
  split; [intros id f F; apply v_guard; auto; apply U, w_both; [apply w_guard, w_guard, U, A; auto|constructor]|].
  split.
  { intros id f F. apply v_other; [discriminate|]. apply v_other; [discriminate|].
    apply (v_both true LogDv [Use LogSt]); [apply v_use; discriminate|]. apply v_guard; auto. apply U, (w_both [Note (Accepted id)]); [constructor|auto]. }
  split; [apply v_guard; auto; constructor|]. split; [apply v_guard; auto; constructor|]. split; [apply v_guard; auto; constructor|].
  split; [apply v_guard; auto; apply U, w_guard; constructor|].
  intros b B. apply v_guard; auto.
Qed.
(** A run of such calls with a calm stop in the middle of one of them, to the end of it all. *)
Example c147_case : exists l s, calls (covered true DataSvc) l /\ calm_stops init l /\ run init l = Some s /\ ret s DataSvc = true /\ In (EStop DataSvc) l.
Proof.
  exists [ENew d_alloc; ERun 0; ERun 0; ENew d_alloc; EStop DataSvc; ERun 1; ERun 0; ERun 0; ERet DataSvc; ENew (d_commit 3); ERun 2]. eexists.
  split; [|split; [|split; [reflexivity|split; [reflexivity|cbn; auto 10]]]].
  - intros x I. pick I; apply c147_covered.
  - cbn. repeat split; auto. intros t x [<-|[<-|[]]]; discriminate.
Qed.
(** In general it does not hold.  A call that has looked at the flag and not yet counted. *)
Theorem c147_race_refuted : exists l s, calls tidy l /\ run init l = Some s /\ In DataSvc (bad s).
Proof.
  exists [ENew d_alloc; ERun 0; EStop DataSvc; ERet DataSvc; ERun 0; ERun 0]. eexists. split; [|split; [reflexivity|now left]].
  intros x I. pick I; constructor.
Qed.
(** A read or write of one piece gives its count back before it begins: here no call is between
    look and count. *)
Theorem c147_early_refuted : exists l s, calls tidy l /\ calm_stops init l /\ run init l = Some s /\ In DataSvc (bad s).
Proof.
  exists [ENew d_read1; ERun 0; ERun 0; ERun 0; EStop DataSvc; ERet DataSvc; ERun 0]. eexists. split; [|split; [|split; [reflexivity|now left]]].
  - intros x I. pick I; constructor.
  - cbn. repeat split; auto. intros t x [<-|[]]; discriminate.
Qed.
(** The completion of a read of many pieces, and flush() called by flush_if_necessary, come
    after the count was given back. *)
Theorem c147_late_refuted : exists l s, calls tidy l /\ calm_stops init l /\ run init l = Some s /\ In DataSvc (bad s) /\ In LogDv (bad s).
Proof.
  exists ([ENew (d_read 1); ERun 0; ERun 0; ERun 0; ERun 0; ERun 1; ERun 1; EStop DataSvc; ERet DataSvc; ERun 0; ERun 0] ++
          [ENew v_flush; ERun 0; ERun 0; ERun 0; ERun 0; EStop LogDv; ERet LogDv; ERun 0]).
  destruct (seen bad ([ENew (d_read 1); ERun 0; ERun 0; ERun 0; ERun 0; ERun 1; ERun 1; EStop DataSvc; ERet DataSvc; ERun 0; ERun 0] ++
          [ENew v_flush; ERun 0; ERun 0; ERun 0; ERun 0; EStop LogDv; ERet LogDv; ERun 0]) [LogDv; DataSvc]) as (s & E & B); [vm_compute; reflexivity|].
  exists s. rewrite B. split; [|split; [|split; [exact E|split; cbn; auto]]].
  - intros x I. pick I; constructor.
  - vm_compute. repeat split; auto; intros t x I; cbn in I; intuition (subst; discriminate).
Qed.

(** ** C148: append_async returns the number of a record it has handed to the log device *)
Theorem c148_returned_partial : forall l s id, calls speaks l -> no_stop l -> run init l = Some s ->
  In (Returned id) (out s) -> In (Accepted id) (out s).
Proof.
  intros l s id C N E. assert (H : honest s); [|apply H]. apply (honest_run l init); auto.
  split; [reflexivity|]. split; [constructor|intros ? []].
Qed.
Example c148_case : exists l s, calls speaks l /\ no_stop l /\ run init l = Some s /\ In (Returned 7) (out s) /\ thr s = [].
Proof.
  exists (ENew (s_append 7 v_flush) :: repeat (ERun 0) 23).
  destruct (seen (fun s => (out s, thr s)) (ENew (s_append 7 v_flush) :: repeat (ERun 0) 23) ([Returned 7; Accepted 7], [])) as (s & E & B); [vm_compute; reflexivity|].
  injection B as B1 B2. exists s. rewrite B1, B2.
  split; [|split; [|split; [exact E|split; [now left|reflexivity]]]].
  - intros x [H|I]; [|apply repeat_spec in I; discriminate]. injection H as <-. right. exists 7%nat, v_flush. split; [constructor|]. split; [|reflexivity].
    intros id I. cbn in I. intuition discriminate.
  - intros c [H|I]; [discriminate|apply repeat_spec in I; discriminate].
Qed.
(** When stop() of the log store, or of the log device alone, sets its flag in the middle, the
    number is returned and nothing was handed over: everything has ended, nothing will be. *)
Theorem c148_store_refuted : exists l s, calls tidy l /\ calm_stops init l /\ run init l = Some s /\ thr s = [] /\ out s = [Returned 7] /\ ret s LogSt = true.
Proof.
  exists ([ENew (s_append 7 []); ERun 0; ERun 0; ERun 0; EStop LogSt] ++ repeat (ERun 0) 4 ++ [ERet LogSt]).
  destruct (seen (fun s => (thr s, out s, ret s LogSt)) ([ENew (s_append 7 []); ERun 0; ERun 0; ERun 0; EStop LogSt] ++ repeat (ERun 0) 4 ++ [ERet LogSt]) ([], [Returned 7], true))
    as (s & E & B); [vm_compute; reflexivity|].
  injection B as B1 B2 B3. exists s. split; [|split; [|auto]].
  - intros x I. pick I; repeat constructor.
  - cbn. repeat split; auto. intros t x [<-|[]]; discriminate.
Qed.
Theorem c148_device_refuted : exists l s, calls tidy l /\ calm_stops init l /\ run init l = Some s /\ thr s = [] /\ out s = [Returned 7] /\ stp s LogSt = false.
Proof.
  exists ([EStop LogDv; ERet LogDv; ENew (s_append 7 [])] ++ repeat (ERun 0) 14).
  destruct (seen (fun s => (thr s, out s, stp s LogSt)) ([EStop LogDv; ERet LogDv; ENew (s_append 7 [])] ++ repeat (ERun 0) 14) ([], [Returned 7], false))
    as (s & E & B); [vm_compute; reflexivity|].
  injection B as B1 B2 B3. exists s. split; [|split; [|auto]].
  - intros x I. pick I; repeat constructor.
  - cbn. repeat split; auto.
Qed.

Print Assumptions c145_counts.
Print Assumptions c145_stop_ends.
Print Assumptions c146_leak_refuted.
Print Assumptions c147_count_first_partial.
Print Assumptions c147_calm_partial.
Print Assumptions c147_race_refuted.
Print Assumptions c147_early_refuted.
Print Assumptions c147_late_refuted.
Print Assumptions c148_returned_partial.
Print Assumptions c148_store_refuted.
Print Assumptions c148_device_refuted.
