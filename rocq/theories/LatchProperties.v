(** Properties C162, C163: a follower that runs out of space. *)
From Coq Require Import List Arith Lia Bool.
From Verif Require Import LatchModel LatchSpec LatchProofs.
Import ListNotations.

(** ** C162: the latch does its work *)

(** While no log entry is rolled back and no leadership asked for in the middle of
    it, the handling of a lack of space never meets the release assertions: whatever
    the data channel, the leaders' batches, the allocator, the commit thread and the
    listener do, an accepted entry finds its request when it is written, or is
    committed already. *)
Theorem c162_no_abort : forall pos l, calm false l -> run pos init l <> Abort.
Proof. intros pos l H. apply run_ok; [apply init_inv|exact H]. Qed.
Print Assumptions c162_no_abort.

(** Keys 2, 12, 22 belong to index 2, and so on. *)
Definition p10 (k : key) : nat := k mod 10.

(** The story of the comment: the first leader's data for index 3 is there; a second
    leader's entry 3 does not fit; the first leader is back and sends its entry 3
    again, which is refused until the listener is done. *)
Definition story : list ev :=
  [Batch 1 [1; 2] [true; true] Accepted; Append false true; Commit; Push 3 true;
   Batch 3 [13] [] (NoSpace 3); Push 4 true; Batch 2 [2; 3] [] Rejected; Batch 2 [2] [] Accepted; Commit; Clear;
   Append false true; Resume; Batch 3 [3; 4] [true; true] Accepted; Append false true; Commit; Commit].
Definition overwrite : list ev := firstn 4 story ++ [Batch 2 [12; 3] [true] Accepted; Append true true; Commit; Commit].

Example story_ok :
  calm false story /\ match run p10 init story with Ok s => log s = [1; 2; 3; 4] /\ com s = 4 | _ => False end /\
  calm false overwrite /\ match run p10 init overwrite with Ok s => log s = [1; 12; 3] /\ com s = 3 | _ => False end.
Proof. vm_compute. repeat split. Qed.

(** ** C163: with a rollback in the middle *)

(** handle_rollback lifts the latch also when the listener is not done.  The entry
    that the latch was to keep out is then accepted; the listener clears its request,
    and the process aborts when the entry is written. *)
Theorem c163_rollback_refuted : exists l, run p10 init l = Abort /\ rolls_back l /\ ~ asks_lead l.
Proof.
  exists [Batch 1 [1; 12] [true; true] Accepted; Append false true; Commit; Push 2 true; Push 3 true;
     Batch 3 [13] [] (NoSpace 3); Batch 2 [2] [] Accepted; Append true true; Batch 3 [3] [] Accepted; Commit; Clear;
     Append false true].
  split; [vm_compute; reflexivity|]. split.
  - exists true. cbn. tauto.
  - unfold asks_lead. cbn. intuition discriminate.
Qed.
Print Assumptions c163_rollback_refuted.

(** become_leader() lifts it too, before it is known whether it succeeds. *)
Theorem c163_lead_refuted : exists l, run p10 init l = Abort /\ asks_lead l /\ ~ rolls_back l.
Proof.
  exists [Batch 1 [1; 2] [true; true] Accepted; Append false true; Commit; Push 3 true;
     Batch 3 [13] [] (NoSpace 3); Lead; Batch 3 [3] [] Accepted; Commit; Clear; Append false true].
  split; [vm_compute; reflexivity|]. split.
  - unfold asks_lead. cbn. tauto.
  - intros [ok X]. cbn in X. intuition discriminate.
Qed.
Print Assumptions c163_lead_refuted.

(** ** C162, end: afterwards entries are taken again *)

Lemma prepare_all c : forall ks lsn oks r, length ks <= length oks -> Forall (eq true) oks ->
  exists r', prepare false c lsn ks oks r = (r', Accepted).
Proof.
  induction ks as [|k ks IH]; intros lsn oks r L F; cbn [prepare]; [eauto|]. cbn [length] in L.
  destruct (lsn <=? c); [apply IH; [lia|exact F]|]. destruct (mem k r); [apply IH; [lia|exact F]|].
  destruct oks as [|o oks]; [cbn in L; lia|]. inversion F as [|? ? <- F']; subst. apply IH; [cbn in L; lia|exact F'].
Qed.

(** Once the listener has resumed, a batch that follows on the log is accepted if
    there is room. *)
Theorem c162_resumes : forall pos l s start ks oks,
  run pos init (l ++ [Resume]) = Ok s -> batch s = None ->
  1 <= start <= S (length (log s)) -> (forall j k, nth_error ks j = Some k -> pos k = start + j) ->
  length ks <= length oks -> Forall (eq true) oks ->
  exists s', step pos s (Batch start ks oks Accepted) = Ok s' /\ batch s' = Some (start, ks).
Proof.
  intros pos l s start ks oks R B [S1 S2] P L F.
  assert (A : forall l s0, run pos s0 (l ++ [Resume]) = Ok s -> latch s = None /\ quiet s = false).
  { clear. induction l as [|e l IH]; intros s0 R; cbn [app run] in R.
    - destruct (step pos s0 Resume) as [s1| |] eqn:E; try discriminate. injection R as <-.
      cbn [step] in E. destruct (lis s0); try discriminate. injection E as <-. now split.
    - destruct (step pos s0 e) as [s1| |]; try discriminate. eauto. }
  destruct (A _ _ R) as [LA QU]. cbn [step]. rewrite B, LA, QU. cbn [latched].
  assert (PL : placed pos start ks = true).
  { clear -P. revert start P. induction ks as [|k ks IH]; intros start P; [reflexivity|]. cbn [placed].
    assert (X := P 0 k eq_refl). rewrite Nat.add_0_r in X. rewrite X, Nat.eqb_refl. cbn [andb]. apply IH.
    intros j x N. rewrite (P (S j) x N). lia. }
  apply Nat.leb_le in S1, S2. rewrite PL, S1, S2. cbn [andb].
  destruct (prepare_all (com s) ks start oks (reqs s) L F) as [r' E]. rewrite E. cbn [pres_eqb].
  eexists. split; reflexivity.
Qed.
Print Assumptions c162_resumes.

Example resumes_ok :
  match run p10 init (firstn 11 story ++ [Resume]) with
  | Ok s => batch s = None /\ log s = [1; 2] | _ => False end.
Proof. vm_compute. split; reflexivity. Qed.
