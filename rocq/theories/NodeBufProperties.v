(** Properties C149-C151: contents of index nodes across CPs, and the cache. *)
From Coq Require Import List Arith Lia Bool.
From Verif Require Import NodeBufModel NodeBufSpec NodeBufProofs.
Import ListNotations.

(** ** C149: what the flush of a CP leaves on the drives *)

(** When the flush of a CP completes, every block holds the contents given to
    it by the last operation of that CP or an earlier one; nothing of the
    operations of the next CP, which ran meanwhile, is there. *)
Theorem c149_flush_is_end_of_cp : forall d l s b,
  run careful (init d) (l ++ [EFinish]) = Some s ->
  disk s b = asof d (hist l) (cur s - 1) b.
Proof.
  intros d l s b R. assert (I := reach_inv _ _ _ R).
  replace (hist l) with (hist (l ++ [EFinish])) by (rewrite hist_app; cbn; apply app_nil_r).
  apply (i_disk2 _ _ _ I).
  rewrite run_app in R. destruct (run careful (init d) l) as [s0|] eqn:R0; [|discriminate].
  assert (PI : ph s = Idle).
  { cbn in R. destruct (ph s0); try discriminate. destruct (cntp s0); try discriminate. now injection R as <-. }
  intros [(i & X1 & X2 & X3 & X4)|(n & c & X1 & X2 & X3 & X4)].
  - destruct (i_dirt _ _ _ I i X1 X3) as [Y|[_ Y]]; [lia|contradiction].
  - destruct (i_cache _ _ _ I _ _ X1) as [L _].
    destruct (i_lock _ _ _ I n c L X3) as [_ [Y|[_ Y]]]; [lia|congruence].
Qed.

(** At any other moment every block holds its contents as of the end of the
    previous CP or of the one before (a crash sees no other). *)
Theorem c149_disk_between_cps : forall d l s b,
  run careful (init d) l = Some s ->
  disk s b = asof d (hist l) (cur s - 1) b \/
  (ph s <> Idle /\ disk s b = asof d (hist l) (cur s - 2) b).
Proof.
  intros d l s b R. assert (I := reach_inv _ _ _ R).
  destruct (phase_eq_dec_idle (ph s)) as [P|P].
  - left. apply (i_disk2 _ _ _ I).
    intros [(i & X1 & X2 & X3 & X4)|(n & c & X1 & X2 & X3 & X4)].
    + destruct (i_dirt _ _ _ I i X1 X3) as [Y|[_ Y]]; [lia|contradiction].
    + destruct (i_cache _ _ _ I _ _ X1) as [L _].
      destruct (i_lock _ _ _ I n c L X3) as [_ [Y|[_ Y]]]; [lia|congruence].
  - destruct (owed_dec s b) as [O|O].
    + right. split; [exact P|]. apply (i_disk1 _ _ _ I). exact O.
    + left. apply (i_disk2 _ _ _ I). exact O.
Qed.

(** A buffer that is being written is not touched by anybody until the write
    has completed. *)
Theorem c149_in_flight_stable : forall d l s e s' i,
  run careful (init d) l = Some s -> careful s e = true -> step s e = Some s' ->
  i < nb s -> bst (bufs s i) = FLUSHING -> e <> EDone i ->
  bufs s' i = bufs s i.
Proof.
  intros d l s e s' i R C E L F NE. assert (I := reach_inv _ _ _ R).
  destruct (i_flush _ _ _ I i L F) as [DI PF].
  assert (LD : forall n c, n < nn s -> nlock (nodes s n) = Some c -> nbuf (nodes s n) <> i).
  { intros n c X Y Z. destruct (i_lock _ _ _ I n c X Y) as [W [V|[_ V]]]; [|congruence].
    rewrite Z in W. lia. }
  destruct e; cbn [step] in E.
  - injection E as <-. unfold get. destruct (cache s b); [reflexivity|]. cbn. rewrite upd_ne by lia. reflexivity.
  - destruct ((n <? nn s) && open s c && _) eqn:G; [|discriminate]. injection E as <-.
    unfold lock. destruct (_ =? c); [reflexivity|]. destruct (c <? _); [reflexivity|].
    destruct (clean (bufs s (nbuf (nodes s n)))) eqn:CL.
    + cbn. rewrite upd_ne; [reflexivity|]. intros ->. unfold clean in CL. rewrite F in CL. discriminate.
    + cbn. rewrite upd_ne by lia. reflexivity.
  - destruct (holds s n c && _) eqn:G; [|discriminate]. injection E as <-.
    apply andb_true_iff in G. destruct G as [G _]. apply holds_iff in G. destruct G as [G1 G2].
    cbn. rewrite upd_ne; [reflexivity|]. intros Q. exact (LD n c G1 G2 (eq_sym Q)).
  - destruct (holds s n c) eqn:G; [|discriminate]. injection E as <-.
    apply holds_iff in G. destruct G as [G1 G2]. unfold write.
    assert (N : i <> nbuf (nodes s n)) by (intros Q; exact (LD n c G1 G2 (eq_sym Q))).
    destruct (clean _); [destruct (c =? cur s)|]; cbn; rewrite upd_ne by exact N; reflexivity.
  - destruct (holds s n c && _); [|discriminate]. injection E as <-. reflexivity.
  - rewrite PF in E. discriminate.
  - rewrite PF in E. discriminate.
  - rewrite PF in E. destruct (existsb (Nat.eqb i0) (dlp s) && _ && _) eqn:G; [|discriminate]. injection E as <-.
    cbn. rewrite upd_ne; [reflexivity|]. intros <-. rewrite F in G. rewrite andb_false_r in G. discriminate.
  - destruct (bst (bufs s i0)) eqn:B; try discriminate. destruct (i0 <? nb s); [|discriminate].
    injection E as <-. cbn. rewrite upd_ne; [reflexivity|]. congruence.
  - rewrite PF in E. destruct (cntp s); [|discriminate]. injection E as <-. reflexivity.
  - destruct (cache s b); [|discriminate]. destruct (clean _); [|discriminate]. injection E as <-. reflexivity.
Qed.

(** No buffer is skipped: while the count of the CP under flush is not zero,
    some buffer of its list can be taken or is being written. *)
Theorem c149_flush_goes_on : forall d l s,
  run careful (init d) l = Some s -> ph s = Flushing -> cntp s <> 0 ->
  exists i s', In i (dlp s) /\ (step s (EPick i) = Some s' \/ step s (EDone i) = Some s').
Proof.
  intros d l s R PF K. assert (I := reach_inv _ _ _ R).
  assert (C := i_cntp _ _ _ I ltac:(rewrite PF; discriminate)).
  destruct (filter (isp s) (dlp s)) as [|i f] eqn:Q; [cbn in C; contradiction|].
  assert (X : In i (filter (isp s) (dlp s))) by (rewrite Q; now left).
  apply filter_In in X. destruct X as [X1 X2]. apply isp_iff in X2. destruct X2 as [X2 X3].
  assert (L := i_dlpb _ _ _ I i X1).
  destruct (bst (bufs s i)) eqn:B; [elim X2; exact B| |].
  - eexists i, _. split; [exact X1|]. left. cbn [step]. rewrite PF, B.
    assert (EX : existsb (Nat.eqb i) (dlp s) = true).
    { apply existsb_exists. exists i. split; [exact X1|apply Nat.eqb_refl]. }
    rewrite EX. apply Nat.eqb_eq in X3. rewrite X3. cbn. reflexivity.
  - eexists i, _. split; [exact X1|]. right. cbn [step]. rewrite B.
    apply Nat.ltb_lt in L. rewrite L. reflexivity.
Qed.

(** ** C150: what readers and writers of a node see *)

(** Whoever reads a node through the cache sees its latest contents. *)
Theorem c150_read_latest : forall d l s b n v,
  run careful (init d) l = Some s -> cache s b = Some n -> read s n = Some v ->
  v = latest d (hist l) b.
Proof.
  intros d l s b n v R C RD. assert (I := reach_inv _ _ _ R).
  unfold read in RD. destruct (n <? nn s); [|discriminate]. destruct (nlock (nodes s n)); [discriminate|].
  injection RD as <-. apply (i_val _ _ _ I). exact C.
Qed.

(** A read that has to go to the drives sees them too. *)
Theorem c150_read_after_miss : forall d l s b n v,
  run careful (init d) l = Some s -> cache (get s b) b = Some n -> read (get s b) n = Some v ->
  v = latest d (hist l) b.
Proof.
  intros d l s b n v R C RD.
  assert (R2 : run careful (init d) (l ++ [EGet b]) = Some (get s b)) by (rewrite run_app, R; reflexivity).
  replace (hist l) with (hist (l ++ [EGet b])) by (rewrite hist_app; cbn; apply app_nil_r).
  eapply c150_read_latest; eauto.
Qed.

(** Two operations never hold the same block for writing, even through two
    node objects. *)
Theorem c150_one_writer : forall d l s n m c c',
  run careful (init d) l = Some s -> n < nn s -> m < nn s ->
  nlock (nodes s n) = Some c -> nlock (nodes s m) = Some c' ->
  nblk (nodes s n) = nblk (nodes s m) -> n = m.
Proof.
  intros d l s n m c c' R L1 L2 K1 K2 E. assert (I := reach_inv _ _ _ R).
  assert (X := locked_cached _ _ _ _ _ I L1 K1). assert (Y := locked_cached _ _ _ _ _ I L2 K2).
  congruence.
Qed.

(** Once an operation of a CP has changed a block, no operation of an older CP
    does. *)
Theorem c150_cp_order : forall d l s,
  run careful (init d) l = Some s -> ordered (hist l).
Proof. exact run_ordered. Qed.

(** ** C151: the same without the two rules for the evictor *)

Definition see (s : option state) (n b : nat) :=
  match s with
  | Some s => Some (read s n, disk s b, ph s, match cache s b with Some m => m =? n | None => false end)
  | None => None
  end.

(** Block 5 is changed to 7 in CP 1; an operation of CP 2 locks the node, which
    copies the dirty buffer, and unlocks it; the copy is clean, so the node is
    dropped and read again from the drives, before the first buffer is written.
    The cache then serves the old contents, also after the flush. *)
Definition stale : list ev :=
  [EGet 5; ELock 0 1; EMod 0 5 1 7; EWrite 0 1; EUnlock 0 1; ESwitch;
   ELock 0 2; EUnlock 0 2; EEvict 5; EGet 5; EStart; EPick 0; EDone 0; EFinish].

Theorem c151_stale_read_refuted :
  exists d l s b n v, run rule_use (init d) l = Some s /\ cache s b = Some n /\
    read s n = Some v /\ v <> latest d (hist l) b /\ disk s b = latest d (hist l) b.
Proof.
  exists (fun _ => 0), stale.
  destruct (run rule_use (init (fun _ => 0)) stale) as [s|] eqn:R.
  - exists s, 5, 1, 0. split; [reflexivity|].
    assert (S1 : see (run rule_use (init (fun _ => 0)) stale) 1 5 = Some (Some 0, 7, Idle, true)) by (vm_compute; reflexivity).
    rewrite R in S1. cbn [see] in S1. destruct (cache s 5) as [m|]; [|discriminate].
    injection S1 as Q1 Q2 Q3 Q4. apply Nat.eqb_eq in Q4. subst m.
    split; [reflexivity|]. split; [exact Q1|]. rewrite Q2. cbn. split; [discriminate|reflexivity].
  - exfalso. assert (S1 : see (run rule_use (init (fun _ => 0)) stale) 1 5 <> None) by (vm_compute; discriminate).
    rewrite R in S1. now apply S1.
Qed.

(** A node in use (not yet locked) is dropped; the next operation gets another
    node for the block; both hold their lock, both change it, and the drives end
    up with the older change. *)
Definition twins : list ev :=
  [EGet 5; EEvict 5; EGet 5; ELock 0 1; ELock 1 1; EMod 0 5 1 7; EMod 1 5 1 8;
   EWrite 0 1; EWrite 1 1; EUnlock 0 1; EUnlock 1 1; ESwitch; EStart;
   EPick 0; EPick 1; EDone 1; EDone 0; EFinish].

Definition locks (s : option state) :=
  match s with
  | Some s => Some (nlock (nodes s 0), nlock (nodes s 1), nblk (nodes s 0) =? nblk (nodes s 1), 1 <? nn s)
  | None => None
  end.

Theorem c151_two_writers_refuted :
  (exists d l s n m, run rule_old (init d) l = Some s /\ n < nn s /\ m < nn s /\ n <> m /\
     nlock (nodes s n) = Some 1 /\ nlock (nodes s m) = Some 1 /\ nblk (nodes s n) = nblk (nodes s m)) /\
  (exists d l s b, run rule_old (init d) (l ++ [EFinish]) = Some s /\
     disk s b <> asof d (hist l) (cur s - 1) b).
Proof.
  split.
  - exists (fun _ => 0), (firstn 5 twins).
    destruct (run rule_old (init (fun _ => 0)) (firstn 5 twins)) as [s|] eqn:R.
    + assert (S1 : locks (run rule_old (init (fun _ => 0)) (firstn 5 twins)) = Some (Some 1, Some 1, true, true)) by (vm_compute; reflexivity).
      rewrite R in S1. cbn [locks] in S1. injection S1 as Q1 Q2 Q3 Q4.
      apply Nat.eqb_eq in Q3. apply Nat.ltb_lt in Q4.
      exists s, 0, 1. repeat split; auto; lia.
    + exfalso. assert (S1 : locks (run rule_old (init (fun _ => 0)) (firstn 5 twins)) <> None) by (vm_compute; discriminate).
      rewrite R in S1. now apply S1.
  - exists (fun _ => 0), (firstn 17 twins).
    destruct (run rule_old (init (fun _ => 0)) (firstn 17 twins ++ [EFinish])) as [s|] eqn:R.
    + exists s, 5. split; [reflexivity|].
      assert (S1 : option_map (fun s => (disk s 5, cur s)) (run rule_old (init (fun _ => 0)) (firstn 17 twins ++ [EFinish])) = Some (7, 2)) by (vm_compute; reflexivity).
      rewrite R in S1. cbn [option_map] in S1. injection S1 as Q1 Q2. rewrite Q1, Q2. vm_compute. discriminate.
    + exfalso. assert (S1 : option_map (fun s => disk s 5) (run rule_old (init (fun _ => 0)) (firstn 17 twins ++ [EFinish])) <> None) by (vm_compute; discriminate).
      rewrite R in S1. now apply S1.
Qed.

(** ** A run that meets the hypotheses *)

(** Two blocks; CP 1 changes both; CP 2 changes one of them while CP 1 is being
    flushed (a copy is made); the late operation of CP 1 on that node is turned
    away; the other node is dropped once its buffer is clean and read again. *)
Definition good : list ev :=
  [EGet 5; EGet 6; ELock 0 1; EMod 0 5 1 7; EWrite 0 1; EUnlock 0 1;
   ELock 1 1; EMod 1 6 1 8; EWrite 1 1; EUnlock 1 1; ESwitch;
   ELock 0 2; EMod 0 5 2 9; EWrite 0 2; EUnlock 0 2; ELock 0 1; EStart;
   EPick 0; EPick 1; EDone 1; EEvict 6; EGet 6; EDone 0].

Definition shown (s : option state) :=
  option_map (fun s => (disk s 5, disk s 6, read s 0, read s 2, cur s, ph s)) s.

Example good_ok :
  shown (run careful (init (fun _ => 0)) (good ++ [EFinish])) = Some (7, 8, Some 9, Some 8, 2, Idle) /\
  map (fun b => asof (fun _ => 0) (hist good) 1 b) [5; 6] = [7; 8] /\
  map (fun b => latest (fun _ => 0) (hist good) b) [5; 6] = [9; 8].
Proof. vm_compute. repeat split. Qed.

(** In the middle of that flush a buffer is in flight and the count is not zero. *)
Example good_in_flight :
  option_map (fun s => (bst (bufs s 0), ph s, cntp s, nb s))
    (run careful (init (fun _ => 0)) (firstn 20 good)) = Some (FLUSHING, Flushing, 1, 3).
Proof. vm_compute. reflexivity. Qed.

(** The bad runs break only the rule that is left out. *)
Example stale_careless : run careful (init (fun _ => 0)) stale = None.
Proof. vm_compute. reflexivity. Qed.

Example twins_careless : run careful (init (fun _ => 0)) twins = None.
Proof. vm_compute. reflexivity. Qed.

Print Assumptions c149_flush_is_end_of_cp.
Print Assumptions c149_disk_between_cps.
Print Assumptions c149_in_flight_stable.
Print Assumptions c149_flush_goes_on.
Print Assumptions c150_read_latest.
Print Assumptions c150_read_after_miss.
Print Assumptions c150_one_writer.
Print Assumptions c150_cp_order.
Print Assumptions c151_stale_read_refuted.
Print Assumptions c151_two_writers_refuted.
