(** Properties C164, C165: the count of dirty memory of the index. *)
From Coq Require Import List ZArith Lia Bool.
From Verif Require Import DirtyModel DirtySpec DirtyProofs.
Import ListNotations.
Open Scope Z_scope.

(** ** C164: the count is right *)

(** Whatever threads do and however flushes fall between, the count is never negative
    and never more than the memory that is dirty; it is that memory when no
    thread is in the middle of write_buf; and the error that it fell below the size
    of a buffer is never logged. *)
Theorem c164_count : forall size limit n l s, 0 < size -> run size limit (init n) l = Some s ->
  0 <= cnt s <= dirty size l /\ (settled l -> cnt s = dirty size l) /\ bad s = false.
Proof.
  intros size limit n l s Hs R. destruct (run_inv size limit l [] _ _ Hs (init_inv size n) R) as [A B C D E F G H].
  cbn in *. unfold dirty, settled. split; [|split; auto].
  - rewrite A. split; nia.
  - intros ->. exact A.
Qed.
Print Assumptions c164_count.

(** When all that was dirtied is flushed, the count is zero again. *)
Theorem c164_zero : forall size limit n l s, 0 < size -> run size limit (init n) l = Some s ->
  pushes l = flushed l -> cnt s = 0.
Proof.
  intros size limit n l s Hs R Z. destruct (c164_count _ _ _ _ _ Hs R) as (A & _). unfold dirty in A.
  rewrite Z, Z.sub_diag, Z.mul_0_r in A. lia.
Qed.
Print Assumptions c164_zero.

(** A write that takes the count over the limit leaves a flush in progress. *)
Theorem c164_triggers : forall size limit n l i s, 0 < size -> run size limit (init n) (l ++ [Count i]) = Some s ->
  limit < cnt s -> infl s = true.
Proof.
  intros size limit n l i s Hs R L. rewrite run_app in R. destruct (run size limit (init n) l) as [s0|]; [|discriminate].
  cbn [run] in R. destruct (step size limit s0 (Count i)) as [s1|] eqn:E; [|discriminate]. injection R as ->.
  unfold step in E. destruct (nth_error (thr s0) i) as [[|o []]|]; try discriminate. cbv zeta in E. injection E as <-.
  destruct (limit <? cnt s0 + size) eqn:X.
  - unfold trigger. cbn. destruct (infl s0); reflexivity.
  - apply Z.ltb_ge in X. cbn in L. lia.
Qed.
Print Assumptions c164_triggers.

(** A flush that is begun takes away all that was dirty when it was asked for: at its
    end only what was dirtied since is left. *)
Theorem c164_flushes : forall size limit n l s f l2 s2, 0 < size -> run size limit (init n) l = Some s ->
  infl s = false -> run size limit s (Ask f :: l2 ++ [Finish]) = Some s2 ->
  dirty size (l ++ Ask f :: l2) <= size * pushes l2.
Proof.
  intros size limit n l s0 f l2 s2 Hs R I R2. cbn [run] in R2. destruct (step size limit s0 (Ask f)) as [s|] eqn:E0; [|discriminate].
  pose proof (run_inv size limit l [] _ _ Hs (init_inv size n) R) as V0. cbn in V0.
  pose proof (step_inv _ _ _ _ _ _ Hs V0 E0) as V.
  assert (C : cur s = O). { cbn [step] in E0. unfold trigger in E0. rewrite I in E0. injection E0 as <-. reflexivity. }
  rewrite run_app in R2. destruct (run size limit s l2) as [s3|] eqn:R3; [|discriminate].
  pose proof (run_inv size limit l2 _ _ _ Hs V R3) as V3.
  cbn [run step] in R2. destruct (old s3) as [|] eqn:O; [|discriminate].
  replace (l ++ Ask f :: l2) with ((l ++ [Ask f]) ++ l2) by (rewrite <- app_assoc; reflexivity).
  unfold dirty. pose proof (i_push _ _ _ V3) as P3. rewrite O in P3.
  assert (Z.of_nat (cur s3) <= Z.of_nat (cur s) + pushes l2); [|nia].
  clear - R3. revert s R3. induction l2 as [|e l2 IH]; intros s R.
  - injection R as <-. unfold pushes; cbn. lia.
  - cbn [run] in R. destruct (step size limit s e) as [s1|] eqn:E; [|discriminate]. specialize (IH _ R).
    assert (X : Z.of_nat (cur s1) <= Z.of_nat (cur s) + pushes [e]).
    { unfold pushes. unfold step in E. destruct e; cbn.
      - destruct (nth_error (thr s) i) as [[|o p]|]; try discriminate. injection E as <-. cbn. lia.
      - destruct (nth_error (thr s) i) as [[|o []]|]; try discriminate. injection E as <-. cbn. destruct o; lia.
      - destruct (nth_error (thr s) i) as [[|o []]|]; try discriminate. cbv zeta in E. injection E as <-.
        destruct (_ <? _); unfold trigger; cbn; [destruct (infl s)|]; cbn; lia.
      - destruct (nth_error (thr s) i) as [[|o []]|]; try discriminate. injection E as <-. cbn. lia.
      - injection E as <-. unfold trigger. destruct (infl s), force; cbn; lia.
      - destruct (_ && _); try discriminate. injection E as <-. cbn. lia.
      - destruct (old s); try discriminate. destruct (started s); try discriminate. injection E as <-. cbn. lia.
      - destruct (old s); try discriminate. destruct (started s); try discriminate. cbv zeta in E. injection E as <-.
        destruct (again s); cbn; lia. }
    change (e :: l2) with ([e] ++ l2). rewrite pushes_app. lia.
Qed.
Print Assumptions c164_flushes.

(** What threads that were inside dirty after the flush was asked for goes with it: if no
    thread enters meanwhile, nothing is dirty at its end. *)
Theorem c164_whole : forall size limit n l s f l2 s2, 0 < size -> run size limit (init n) l = Some s ->
  infl s = false -> run size limit s (Ask f :: l2 ++ [Finish]) = Some s2 ->
  (forall i, ~ List.In (Enter i) l2) -> dirty size (l ++ Ask f :: l2) = 0.
Proof.
  intros size limit n l s0 f l2 s2 Hs R I R2 NE. cbn [run] in R2. destruct (step size limit s0 (Ask f)) as [s|] eqn:E0; [|discriminate].
  pose proof (run_inv size limit l [] _ _ Hs (init_inv size n) R) as V0. cbn in V0.
  pose proof (step_inv _ _ _ _ _ _ Hs V0 E0) as V.
  assert (C : only_old s). { cbn [step] in E0. unfold trigger in E0. rewrite I in E0. injection E0 as <-. apply switch_old. }
  rewrite run_app in R2. destruct (run size limit s l2) as [s3|] eqn:R3; [|discriminate].
  pose proof (run_inv size limit l2 _ _ _ Hs V R3) as V3.
  destruct (run_old _ _ _ _ _ NE C R3) as [C3 _].
  cbn [run step] in R2. destruct (old s3) as [|] eqn:O; [|discriminate].
  replace (l ++ Ask f :: l2) with ((l ++ [Ask f]) ++ l2) by (rewrite <- app_assoc; reflexivity).
  unfold dirty. rewrite (i_push _ _ _ V3), O, C3. cbn. lia.
Qed.
Print Assumptions c164_whole.

(** Thread 0 dirties one more buffer after the flush was asked for. *)
Example whole_ok :
  match run 4 8 (init 1) [Enter 0; Push 0; Count 0] with
  | Some s => infl s = false /\
      run 4 8 s (Ask false :: [Push 0; Count 0; Exit 0; Start; Done; Done] ++ [Finish]) = Some (init 1)
  | None => False end.
Proof. vm_compute. repeat split; reflexivity. Qed.

(** Two threads, buffers of 4, limit 8.  Thread 1 dirties a buffer, thread 0 takes
    the count over the limit before thread 1 has counted its own. *)
Definition two : list ev :=
  [Enter 0; Enter 1; Push 1; Push 0; Count 0; Push 0; Count 0; Push 0; Count 0; Exit 0; Count 1; Enter 0; Push 0; Count 0;
   Exit 1; Start; Done; Done; Done; Done; Finish; Exit 0; Ask true; Start; Done; Finish].
Example two_ok :
  match run 4 8 (init 2) (firstn 9 two) with Some s => cnt s = 12 /\ infl s = true /\ dirty 4 (firstn 9 two) = 16 | None => False end /\
  match run 4 8 (init 2) (firstn 21 two) with Some s => cnt s = 4 /\ infl s = false /\ dirty 4 (firstn 21 two) = 4 | None => False end /\
  match run 4 8 (init 2) two with Some s => cnt s = 0 /\ pushes two = flushed two | None => False end.
Proof. vm_compute. repeat split; reflexivity. Qed.

(** ** C165: the limit is none *)

(** The configuration says that the limit is used twice because of two concurrent
    checkpoints (homestore_config.fbs:167).  A write over the limit during a flush
    only asks for a flush, is refused one, and goes on: there is no bound. *)
Theorem c165_bound_refuted : forall size limit k, 0 < size -> exists l s,
  run size limit (init 1) l = Some s /\ settled l /\ k < cnt s.
Proof.
  intros size limit k Hs.
  exists ([Ask false; Start; Enter 0] ++ writes (S (Z.to_nat k))).
  eexists. split; [|split].
  - rewrite run_app. cbn [run step init repeat trigger infl switch started thr existsb is_old map to_old andb negb
      nth_error set with_thr cnt cur old again bad]. apply writes_run.
  - unfold settled. rewrite pushes_app, counts_app. f_equal.
    induction (S (Z.to_nat k)) as [|m IH]; [reflexivity|]. cbn [writes]. unfold pushes, counts in *. cbn. lia.
  - cbn [cnt]. nia.
Qed.
Print Assumptions c165_bound_refuted.

(** What was refused is not made up for: the flush ends with the count over the limit,
    and no flush is in progress until the next write or the timer. *)
Theorem c165_forgotten_refuted : exists l s, run 4 8 (init 1) l = Some s /\ settled l /\
  8 < cnt s /\ infl s = false /\ again s = false /\ thr s = [Out].
Proof.
  exists ([Ask false; Start; Enter 0] ++ writes 3 ++ [Exit 0; Finish]). eexists.
  split; [vm_compute; reflexivity|]. vm_compute. repeat split; reflexivity.
Qed.
Print Assumptions c165_forgotten_refuted.
