(** * Properties of the raft log store (C46, C47, C87 - C89). *)
From Coq Require Import NArith ZArith List Bool Lia.
From Verif Require Import Base RaftLogModel RaftLogSpec RaftLogProofs.
Import ListNotations.
Open Scope Z_scope.

(** C46: every legal sequence of calls runs without a failed assertion and answers like a
    plain list of entries; the durable index lies between what was flushed and the last entry,
    and is the last entry after a flush. *)
Theorem c46_raft_log : forall l, legal_run new_log l ->
  exists r, run rls_new l = Some (r, snd (spec_run new_log l)) /\
    let s := fst (spec_run new_log l) in
    l_flushed s <= snd (last_durable r) < l_next s /\
    (l_flushed s = l_next s - 1 -> snd (last_durable r) = l_next s - 1).
Proof.
  intros l Hl. destruct (run_ok l rls_new new_log R_new Hl) as (r & E & HR).
  exists r. split; [exact E|]. exact (durable_ok _ _ HR).
Qed.
Print Assumptions c46_raft_log.

(** A boolean test of [legal_run]. *)
Definition legal_b (s : log) (o : op) : bool :=
  match o with
  | Append _ | Flush | Purge | Durable | AskNext | AskStart | Compact _ => true
  | EndBatch start cnt => start + cnt - 1 <? l_next s
  | WriteAt i _ => (l_first s <=? i) && (i <=? l_next s) && (l_flushed s =? l_next s - 1)
  | Restart i => (Z.max (l_flushed s) (l_first s - 1) <=? i) && (i <? l_next s)
  | AskEntry i | AskTerm i => (l_first s <=? i) && (i <? l_next s)
  | AskLast => match l_ents s with [] => l_next s =? 1 | _ => true end
  | AskEntries a b _ => (l_first s <=? a) && (a <=? b) && (b - 1 <=? l_flushed s)
  end.
Fixpoint legal_run_b (s : log) (l : list op) : bool :=
  match l with [] => true | o :: t => legal_b s o && legal_run_b (fst (spec_step s o)) t end.
Lemma legal_run_b_ok : forall l s, legal_run_b s l = true -> legal_run s l.
Proof.
  induction l as [|o l IH]; intros s H; [exact I|].
  cbn [legal_run_b] in H. apply andb_prop in H as [H1 H2]. split; [|now apply IH].
  destruct o; cbn [legal legal_b] in *; try exact I; try lia.
  destruct (l_ents s); [right; lia|left; discriminate].
Qed.

Definition ent (k : nat) : entry := Entry (N.of_nat k) (N.of_nat (k + 1000)).
(** 150 entries, so that cache slots are used twice; an overwrite at 120, whose slot holds it,
    and at 30, whose slot holds entry 130; compaction; a restart that loses what was not
    flushed. *)
Definition c46_ops : list op :=
  AskLast :: map (fun k => Append (ent k)) (seq 1 150) ++
  [EndBatch 1 150; AskEntry 30; AskEntry 130; AskTerm 150; AskEntries 20 40 5;
   WriteAt 120 (ent 500); AskLast; AskNext; AskEntry 119; AskEntry 30;
   WriteAt 30 (ent 600); AskLast; AskEntry 29; AskEntry 30; Append (ent 601); Append (ent 602); AskEntry 32;
   Compact 25; AskStart; AskEntry 26; Append (ent 603); Restart 32; AskNext; AskEntry 32; AskLast;
   Compact 50; AskStart; AskNext; Append (ent 700); AskLast; Purge; AskStart].
Example c46_case : legal_run new_log c46_ops /\
  skipn 151 (snd (spec_run new_log c46_ops)) =
  [Done; Ent (ent 30); Ent (ent 130); TermIs 150; Ents [ent 20; ent 21; ent 22; ent 23; ent 24];
   Done; Ent (ent 500); Idx 121; Ent (ent 119); Ent (ent 30);
   Done; Ent (ent 600); Ent (ent 29); Ent (ent 600); Idx 31; Idx 32; Ent (ent 602);
   Done; Idx 26; Ent (ent 26); Idx 33; Done; Idx 33; Ent (ent 602); Ent (ent 602);
   Done; Idx 51; Idx 51; Idx 51; Ent (ent 700); Done; Idx 52].
Proof. split; [apply legal_run_b_ok; vm_compute; reflexivity|vm_compute; reflexivity]. Qed.

(** C47: a pack taken from one log at [i] and applied to a log that ends right before [i]
    gives the target the same entries at the same indices, after its own ones. *)
Theorem c47_pack_partial : forall la lb n, legal_run new_log la -> legal_run new_log lb ->
  let sa := fst (spec_run new_log la) in let sb := fst (spec_run new_log lb) in
  let i := l_next sb in
  l_first sa <= i -> i + Z.of_nat n - 1 <= l_flushed sa -> (1 <= n)%nat ->
  exists ra rb r, run rls_new la = Some (ra, snd (spec_run new_log la)) /\
    run rls_new lb = Some (rb, snd (spec_run new_log lb)) /\
    apply_pack rb i (pack ra i n) = Some r /\
    next_slot r = i + Z.of_nat n /\ start_index r = l_first sb /\
    (forall j e, i <= j < i + Z.of_nat n -> l_at sa j = Some e -> snd (entry_at r j) = Found e) /\
    (forall j e, j < i -> l_at sb j = Some e -> snd (entry_at r j) = Found e).
Proof.
  intros la lb n Ha Hb sa sb i Hi Hn Hn1.
  destruct (run_ok la rls_new new_log R_new Ha) as (ra & Ea & HRa).
  destruct (run_ok lb rls_new new_log R_new Hb) as (rb & Eb & HRb).
  fold sa in HRa. fold sb in HRb.
  exists ra, rb. rewrite (pack_ok ra sa i n HRa Hi Hn).
  set (p := l_slice sa i (i + Z.of_nat n)).
  assert (Hfl : l_flushed sa < l_next sa) by (destruct HRa; lia).
  assert (Hlen : length p = n).
  { unfold p, l_slice. rewrite firstn_length, skipn_length. unfold l_next in Hfl. lia. }
  destruct (apply_ok rb sb p HRb) as (r & Er & HR). rewrite Hlen in Er.
  exists r. split; [exact Ea|]. split; [exact Eb|]. split; [exact Er|].
  set (s := all_flushed (Log (l_first sb) (l_ents sb ++ p) 0)) in *.
  assert (Hnext : l_next s = i + Z.of_nat n).
  { unfold s, all_flushed, l_next, i, l_next. cbn [l_first l_ents]. rewrite app_length. lia. }
  assert (Hask : forall j e, l_at s j = Some e -> snd (entry_at r j) = Found e).
  { intros j e He.
    assert (Hj : l_first s <= j < l_next s).
    { split.
      - unfold l_at in He. destruct (Z.ltb_spec j (l_first s)); [discriminate|lia].
      - destruct (Z.ltb_spec j (l_next s)); [lia|]. rewrite l_at_none in He by lia. discriminate. }
    destruct (step_ok r s (AskEntry j) HR Hj) as (r' & E & _). cbn [step spec_step snd] in E. rewrite He in E.
    destruct (entry_at r j) as [r1 a]. cbn [snd]. injection E as _ E. destruct a; cbn in E; congruence. }
  split; [|split; [|split]].
  - destruct (step_ok r s AskNext HR I) as (r' & E & _). cbn in E. injection E as _ E. rewrite E. exact Hnext.
  - destruct (step_ok r s AskStart HR I) as (r' & E & _). cbn in E. injection E as _ E. exact E.
  - intros j e Hj He. apply Hask.
    unfold s, all_flushed, l_at. cbn [l_first l_ents].
    assert (Hji : l_first sb <= j) by (unfold i, l_next in Hj; lia).
    destruct (Z.ltb_spec j (l_first sb)); [lia|].
    rewrite nth_error_app2 by (unfold i, l_next in Hj; lia).
    unfold l_at in He. destruct (Z.ltb_spec j (l_first sa)); [discriminate|].
    unfold p, l_slice.
    assert (Hf : forall (A : Type) (l : list A) m k, (k < m)%nat -> nth_error (firstn m l) k = nth_error l k).
    { clear. intros A l. induction l as [|x l IH]; intros [|m] [|k] Hk; try lia; try reflexivity. cbn. apply IH. lia. }
    rewrite Hf by (unfold i, l_next in *; lia). rewrite nth_skipn. rewrite <- He. f_equal. unfold i, l_next in *. lia.
  - intros j e Hj He. apply Hask. unfold s, all_flushed, l_at in *. cbn [l_first l_ents].
    destruct (Z.ltb_spec j (l_first sb)); [discriminate|].
    rewrite nth_error_app1; [exact He|]. apply nth_error_Some. congruence.
Qed.
Print Assumptions c47_pack_partial.

Definition app_range (a n : nat) : list op := map (fun k => Append (ent k)) (seq a n) ++ [Flush].
Example c47_case :
  let la := app_range 1 8 in let lb := [Append (ent 1); Append (ent 2); Append (ent 3)] in
  legal_run new_log la /\ legal_run new_log lb /\
  l_first (fst (spec_run new_log la)) <= l_next (fst (spec_run new_log lb)) /\
  l_next (fst (spec_run new_log lb)) + 5 - 1 <= l_flushed (fst (spec_run new_log la)).
Proof.
  split; [apply legal_run_b_ok; vm_compute; reflexivity|].
  split; [apply legal_run_b_ok; vm_compute; reflexivity|]. vm_compute. split; discriminate.
Qed.

(** What a target answers at some indices after taking a pack. *)
Definition after_pack (la lb : list op) (i : Z) (n : nat) (ask : list Z) : option (Z * list answer) :=
  match run rls_new la, run rls_new lb with
  | Some (ra, _), Some (rb, _) =>
    match apply_pack rb i (pack ra i n) with
    | Some r => Some (h_next (r_store r) + 1, map (fun j => snd (entry_at r j)) ask)
    | None => None
    end
  | _, _ => None
  end.
(** A target that ends before [i]: entry 5 of the source lands at index 3. *)
Theorem c47_gap_refuted : exists la lb, legal_run new_log la /\ legal_run new_log lb /\
  map (l_at (fst (spec_run new_log la))) [5; 6] = [Some (ent 5); Some (ent 6)] /\
  l_next (fst (spec_run new_log lb)) = 3 /\
  after_pack la lb 5 2 [3; 4; 5; 6] = Some (5, [Found (ent 5); Found (ent 6); Thrown; Thrown]).
Proof.
  exists (app_range 1 8), (app_range 1 2).
  split; [apply legal_run_b_ok; vm_compute; reflexivity|].
  split; [apply legal_run_b_ok; vm_compute; reflexivity|]. vm_compute. repeat split.
Qed.
Print Assumptions c47_gap_refuted.
(** A target with other entries from [i] on: they are replaced and the log now ends at 5, but
    the old entries 6 and 7 are still answered from the cache. *)
Theorem c47_overlap_refuted : exists la lb, legal_run new_log la /\ legal_run new_log lb /\
  after_pack la lb 4 2 [3; 4; 5; 6; 7] =
  Some (6, [Found (ent 3); Found (ent 4); Found (ent 5); Found (ent 96); Found (ent 97)]).
Proof.
  exists (app_range 1 5), (map (fun k => Append (ent k)) [1; 2; 3; 94; 95; 96; 97]%nat ++ [Flush]).
  split; [apply legal_run_b_ok; vm_compute; reflexivity|].
  split; [apply legal_run_b_ok; vm_compute; reflexivity|]. vm_compute. reflexivity.
Qed.
Print Assumptions c47_overlap_refuted.

(** C87: asked for entries that were compacted away, or that are not flushed yet, the list is
    silently shorter: its first entry is not the one asked for, or it ends early. *)
Theorem c87_slice_refuted :
  (exists l, legal_run new_log l /\
     match run rls_new l with Some (r, _) => start_index r = 4 /\ log_entries r 2 6 = [ent 4; ent 5] | None => False end) /\
  (exists l, legal_run new_log l /\
     match run rls_new l with Some (r, _) => next_slot r = 5 /\ log_entries r 1 5 = [ent 1; ent 2] | None => False end).
Proof.
  split.
  - exists (app_range 1 8 ++ [Compact 3]). split; [apply legal_run_b_ok; vm_compute; reflexivity|]. vm_compute. split; reflexivity.
  - exists (app_range 1 2 ++ [Append (ent 3); Append (ent 4)]).
    split; [apply legal_run_b_ok; vm_compute; reflexivity|]. vm_compute. split; reflexivity.
Qed.
Print Assumptions c87_slice_refuted.

(** C88: an overwrite, at an index inside the log, while later entries are not flushed yet
    fails the release assert: rolling back to the tail of the flushed ones, or beyond, does
    nothing. *)
Theorem c88_overwrite_refuted : exists l i, legal_run new_log l /\
  let s := fst (spec_run new_log l) in l_first s <= i < l_next s /\
  match run rls_new l with Some (r, _) => write_at r i (ent 9) = None | None => False end.
Proof.
  exists (app_range 1 2 ++ [Append (ent 3); Append (ent 4)]), 3.
  split; [apply legal_run_b_ok; vm_compute; reflexivity|]. vm_compute.
  split; [split; [discriminate|reflexivity]|reflexivity].
Qed.
Print Assumptions c88_overwrite_refuted.

(** C89: an entry that was compacted away is still answered, and the last entry of a log with
    no entries is not the dummy one, as long as the cache holds them. *)
Theorem c89_compacted_refuted : exists l, legal_run new_log l /\
  match run rls_new l with
  | Some (r, _) => start_index r = 5 /\ next_slot r = 5 /\ snd (entry_at r 2) = Found (ent 2) /\ snd (last_entry r) = Found (ent 4)
  | None => False
  end.
Proof.
  exists (app_range 1 4 ++ [Compact 4]).
  split; [apply legal_run_b_ok; vm_compute; reflexivity|]. vm_compute. repeat split.
Qed.
Print Assumptions c89_compacted_refuted.
