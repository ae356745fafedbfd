(** Proofs about deferred frees. *)
From Coq Require Import NArith ZArith List Lia Bool Permutation.
From Coq Require Import ZifyBool ZifyNat ZifyN.
From Verif Require Import Base ExtSpec ExtFacts VdevFreeModel VdevFreeSpec.
Import ListNotations.
Local Open Scope N_scope.

Lemma free_list : forall l av b, fold_left allocator_free l av b = (0 <? holders b l)%nat || av b.
Proof.
  induction l as [|x l IH]; intros av b; [reflexivity|]. cbn [fold_left]. rewrite IH, holders_cons. unfold allocator_free.
  destruct (inside b x), (av b); rewrite ?orb_true_r, ?orb_false_r; auto.
Qed.

Lemma free_deferred : forall xs s c, free_blk false s (Some c) false xs =
  fold_left (fun s x => Vst (v_avail s) (put_ctx (v_ctx s) c (v_ctx s c ++ [x])) (v_cur s)) xs s.
Proof. reflexivity. Qed.

Lemma free_deferred_spec : forall xs s c,
  let s' := free_blk false s (Some c) false xs in
  v_avail s' = v_avail s /\ v_cur s' = v_cur s /\ (forall k, v_ctx s' k = if Nat.eqb k c then v_ctx s c ++ xs else v_ctx s k).
Proof.
  intros xs. induction xs as [|x xs IH]; intros s c; cbn zeta.
  - cbn. ands; auto. intros k. destruct (Nat.eqb_spec k c); [subst; now rewrite app_nil_r|reflexivity].
  - unfold free_blk in *. cbn [fold_left].
    specialize (IH (free_blk1 false s (Some c) false x) c). cbn zeta in IH. destruct IH as [A [B C]].
    rewrite A, B. ands; auto. intros k. rewrite C. unfold free_blk1, put_ctx. cbn. rewrite Nat.eqb_refl.
    destruct (Nat.eqb k c); [|reflexivity]. now rewrite <- app_assoc.
Qed.

Lemma free_now_spec : forall xs s c,
  let s' := free_blk false s c true xs in
  (forall b, v_avail s' b = (0 <? holders b xs)%nat || v_avail s b) /\ v_cur s' = v_cur s /\ v_ctx s' = v_ctx s.
Proof.
  intros xs. induction xs as [|x xs IH]; intros s c; cbn zeta.
  - cbn. auto.
  - unfold free_blk in *. cbn [fold_left].
    specialize (IH (free_blk1 false s c true x) c). cbn zeta in IH. destruct IH as [A [B C]].
    assert (E : free_blk1 false s c true x = Vst (allocator_free (v_avail s) x) (v_ctx s) (v_cur s)) by (destruct c; reflexivity).
    rewrite E in *. ands; auto. intros b. rewrite A. cbn [v_avail]. unfold allocator_free. rewrite holders_cons.
    destruct (inside b x), (v_avail s b); rewrite ?orb_true_r, ?orb_false_r; auto.
Qed.

(** Checkpoints that may still hold pending frees: all below [S v_cur] plus those used.
    The pending extents of checkpoint [c]. *)
Definition pend (h : hist) (c : nat) : list ext :=
  match h_left h c with
  | Some [] => []
  | _ => v_ctx (h_dev h) c
  end.

Definition one (b : N) (l : list ext) : nat := holders b l.

(** No block is in two places: available, owned, pending under some checkpoint. *)
Definition inv (h : hist) : Prop :=
  (forall b, v_avail (h_dev h) b = true -> holders b (h_owned h) = 0%nat /\ forall c, holders b (pend h c) = 0%nat) /\
  (forall b, (holders b (h_owned h) <= 1)%nat) /\
  (forall b c, (holders b (pend h c) <= 1)%nat) /\
  (forall b c, (0 < holders b (pend h c))%nat -> holders b (h_owned h) = 0%nat /\
      forall c', c' <> c -> holders b (pend h c') = 0%nat) /\
  (forall c x, In (c, x) (h_freed h) -> In x (v_ctx (h_dev h) c)) /\
  (forall c, ~ In c (h_durable h) -> h_left h c = None \/ h_left h c = Some [FlushBitmaps; ReleaseFrees]) /\
  (forall c, h_left h c = None \/ h_left h c = Some [FlushBitmaps; ReleaseFrees] \/ h_left h c = Some [ReleaseFrees] \/ h_left h c = Some []) /\
  (forall c, h_left h c = Some [] \/ h_left h c = Some [ReleaseFrees] -> In c (h_durable h)).

Lemma in_holders : forall b x l, In x l -> inside b x = true -> (0 < holders b l)%nat.
Proof.
  intros b x l. induction l as [|y l IH]; intros H Hi; [contradiction|]. rewrite holders_cons.
  destruct H as [->|H]; [rewrite Hi; lia|]. specialize (IH H Hi). lia.
Qed.

Lemma step_inv : forall h h', inv h -> step h h' -> inv h'.
Proof.
  intros h h' [I1 [I2 [I3 [I4 [I5 [I6 [I7 I8]]]]]]] Hs.
  destruct Hs as [h x Hx|h l1 l2 xs c Ho Hl|h l1 l2 xs c Ho|h|h c Hc Hl|h c p r Hl];
    unfold inv, pend in *; cbn [h_dev h_owned h_freed h_durable h_left v_avail v_ctx v_cur] in *.
  - ands; auto.
    + intros b Hb. unfold allocator_take in Hb. apply andb_true_iff in Hb. destruct Hb as [Hb1 Hb2].
      apply negb_true_iff in Hb1. rewrite holders_cons, Hb1. cbn. now apply I1.
    + intros b. rewrite holders_cons. specialize (I2 b). destruct (inside b x) eqn:E; [|lia].
      apply Hx in E. apply I1 in E. lia.
    + intros b c Hp. pose proof (I4 b c Hp) as [A B]. split; [|exact B].
      rewrite holders_cons, A. destruct (inside b x) eqn:E; [|reflexivity].
      apply Hx in E. apply I1 in E. destruct E as [_ E]. rewrite E in Hp. lia.
  - destruct (free_deferred_spec xs (h_dev h) c) as [A [B C]].
    assert (Hold : forall b, holders b (h_owned h) = (holders b xs + holders b (l1 ++ l2))%nat).
    { intros b. rewrite Ho, !holders_app. lia. }
    assert (Hp : forall b k, holders b (match h_left h k with Some [] => [] | _ => v_ctx (free_blk false (h_dev h) (Some c) false xs) k end) =
       ((if Nat.eqb k c then holders b xs else 0) + holders b (match h_left h k with Some [] => [] | _ => v_ctx (h_dev h) k end))%nat).
    { intros b k. rewrite C. destruct (Nat.eqb_spec k c).
      - subst k. rewrite Hl, holders_app. lia.
      - destruct (h_left h k) as [[|]|]; reflexivity. }
    rewrite A. ands; auto.
    + intros b Hb. destruct (I1 b Hb) as [D E]. rewrite Hold in D. split; [lia|]. intros k. rewrite Hp, E.
      destruct (Nat.eqb k c); lia.
    + intros b. specialize (I2 b). rewrite Hold in I2. lia.
    + intros b k. rewrite Hp. specialize (I3 b k). destruct (Nat.eqb_spec k c); [|lia]. subst k.
      specialize (I2 b). specialize (I4 b c). rewrite Hold in *.
      destruct (holders b (match h_left h c with Some [] => [] | _ => v_ctx (h_dev h) c end)) eqn:E; [lia|].
      destruct I4 as [I4 _]; [lia|]. lia.
    + intros b k. rewrite Hp. intros Hpos. specialize (I2 b). rewrite Hold in I2.
      destruct (holders b xs) eqn:Ex.
      * assert (Hpk : (0 < holders b (match h_left h k with Some [] => [] | _ => v_ctx (h_dev h) k end))%nat) by (destruct (Nat.eqb k c); lia).
        destruct (I4 b k Hpk) as [D E]. rewrite Hold in D. split; [lia|]. intros c' Hc'. rewrite Hp, (E c' Hc').
        destruct (Nat.eqb c' c); lia.
      * assert (Hno : forall k', holders b (match h_left h k' with Some [] => [] | _ => v_ctx (h_dev h) k' end) = 0%nat).
        { intros k'. destruct (holders b (match h_left h k' with Some [] => [] | _ => v_ctx (h_dev h) k' end)) eqn:E; [reflexivity|].
          destruct (I4 b k') as [D _]; [lia|]. rewrite Hold in D. lia. }
        split; [lia|]. intros c' Hc'. rewrite Hp, Hno. rewrite Hno in Hpos.
        destruct (Nat.eqb_spec c' c); [|lia]. destruct (Nat.eqb_spec k c); [congruence|lia].
    + intros k x Hin. rewrite in_app_iff in Hin. rewrite C. destruct Hin as [Hin|Hin].
      * apply in_map_iff in Hin. destruct Hin as [y [E Hy]]. injection E as <- <-. rewrite Nat.eqb_refl, in_app_iff. now right.
      * pose proof (I5 _ _ Hin). destruct (Nat.eqb_spec k c); [subst; rewrite in_app_iff; now left|assumption].
  - destruct (free_now_spec xs (h_dev h) c) as [A [B C]]. rewrite C.
    assert (Hold : forall b, holders b (h_owned h) = (holders b xs + holders b (l1 ++ l2))%nat).
    { intros b. rewrite Ho, !holders_app. lia. }
    ands; auto.
    + intros b Hb. rewrite A in Hb. specialize (I1 b). specialize (I2 b). rewrite Hold in *. 
      destruct (holders b xs) eqn:Ex.
      * cbn in Hb. destruct (I1 Hb). split; [lia|assumption].
      * split; [lia|]. intros k. destruct (holders b (match h_left h k with Some [] => [] | _ => v_ctx (h_dev h) k end)) eqn:E; [reflexivity|].
        destruct (I4 b k) as [D _]; [lia|]. rewrite Hold in D. lia.
    + intros b. specialize (I2 b). rewrite Hold in I2. lia.
    + intros b k Hp. destruct (I4 b k Hp) as [D E]. rewrite Hold in D. split; [lia|assumption].
  - ands; auto.
  - assert (Hp : forall k, match set_left (h_left h) c (Some cp_flush_parts) k with Some [] => [] | _ => v_ctx (h_dev h) k end =
                       match h_left h k with Some [] => [] | _ => v_ctx (h_dev h) k end).
    { intros k. unfold set_left. destruct (Nat.eqb_spec k c); [|reflexivity]. subst. rewrite Hl. reflexivity. }
    ands; auto.
    + intros b Hb. destruct (I1 b Hb) as [D E]. split; [assumption|]. intros k. rewrite Hp. apply E.
    + intros b k. rewrite Hp. apply I3.
    + intros b k. rewrite Hp. intros H. destruct (I4 b k H) as [D E]. split; [assumption|]. intros c' Hc'. rewrite Hp. auto.
    + intros k Hk. unfold set_left. destruct (Nat.eqb k c); [now right|auto].
    + intros k. unfold set_left. destruct (Nat.eqb k c); [now right; left|auto].
    + intros k. unfold set_left. destruct (Nat.eqb k c); [intros [H|H]; discriminate|auto].
  - pose proof (I7 c) as Hc. rewrite Hl in Hc. destruct Hc as [Hc|[Hc|[Hc|Hc]]]; try discriminate.
    + injection Hc as -> ->. cbn [flush_part_step].
      assert (Hp : forall k, match set_left (h_left h) c (Some [ReleaseFrees]) k with Some [] => [] | _ => v_ctx (h_dev h) k end =
                         match h_left h k with Some [] => [] | _ => v_ctx (h_dev h) k end).
      { intros k. unfold set_left. destruct (Nat.eqb_spec k c); [|reflexivity]. subst. rewrite Hl. reflexivity. }
      ands; auto.
      * intros b Hb. destruct (I1 b Hb) as [D E]. split; [assumption|]. intros k. rewrite Hp. apply E.
      * intros b k. rewrite Hp. apply I3.
      * intros b k. rewrite Hp. intros H. destruct (I4 b k H) as [D E]. split; [assumption|]. intros c' Hc'. rewrite Hp. auto.
      * intros k Hk. unfold set_left. destruct (Nat.eqb_spec k c); [subst; exfalso; apply Hk; now left|].
        apply I6. intros H. apply Hk. now right.
      * intros k. unfold set_left. destruct (Nat.eqb k c); [auto|auto].
      * intros k. unfold set_left. destruct (Nat.eqb_spec k c); [subst; intros _; now left|]. intros H. right. auto.
    + injection Hc as -> ->. cbn [flush_part_step v_avail v_ctx].
      assert (Hp : forall k, match set_left (h_left h) c (Some []) k with Some [] => [] | _ => v_ctx (h_dev h) k end =
                         if Nat.eqb k c then [] else match h_left h k with Some [] => [] | _ => v_ctx (h_dev h) k end).
      { intros k. unfold set_left. destruct (Nat.eqb_spec k c); reflexivity. }
      assert (Hpc : match h_left h c with Some [] => [] | _ => v_ctx (h_dev h) c end = v_ctx (h_dev h) c) by (rewrite Hl; reflexivity).
      ands; auto.
      * intros b Hb. rewrite free_list in Hb. apply orb_true_iff in Hb. destruct Hb as [Hb|Hb].
        -- assert (Hpos : (0 < holders b (v_ctx (h_dev h) c))%nat) by lia. rewrite <- Hpc in Hpos.
           destruct (I4 b c Hpos) as [D E]. split; [assumption|]. intros k. rewrite Hp.
           destruct (Nat.eqb_spec k c); [reflexivity|]. now apply E.
        -- destruct (I1 b Hb) as [D E]. split; [assumption|]. intros k. rewrite Hp.
           destruct (Nat.eqb_spec k c); [reflexivity|]. apply E.
      * intros b k. rewrite Hp. destruct (Nat.eqb k c); [rewrite holders_nil; lia|apply I3].
      * intros b k. rewrite Hp. destruct (Nat.eqb_spec k c); [rewrite holders_nil; lia|]. intros H.
        destruct (I4 b k H) as [D E]. split; [assumption|]. intros c' Hc'. rewrite Hp.
        destruct (Nat.eqb c' c); [reflexivity|]. auto.
      * intros k Hk. unfold set_left. destruct (Nat.eqb_spec k c); [|auto]. subst. exfalso. apply Hk. apply I8. auto.
      * intros k. unfold set_left. destruct (Nat.eqb k c); auto.
      * intros k. unfold set_left. destruct (Nat.eqb_spec k c); [subst; intros _; apply I8; auto|auto].
Qed.

Lemma reach_inv : forall total h, reach total h -> inv h.
Proof.
  intros total h H. induction H as [|h h' H IH Hs]; [|eapply step_inv; eauto].
  unfold inv, pend, init. cbn. ands; auto; try (intros; rewrite ?holders_nil; auto; lia).
  intros c [H|H]; discriminate.
Qed.

Lemma c11_lemma : forall total h n x, reach total h -> In (n, x) (h_freed h) -> ~ In n (h_durable h) ->
  (forall y, In y (h_owned h) -> ~ overlap x y) /\
  (forall b, inside b x = true -> v_avail (h_dev h) b = false).
Proof.
  intros total h n x Hr Hf Hd. destruct (reach_inv total h Hr) as [I1 [I2 [I3 [I4 [I5 [I6 [I7 I8]]]]]]].
  pose proof (I5 _ _ Hf) as Hin.
  assert (Hpend : pend h n = v_ctx (h_dev h) n).
  { unfold pend. destruct (I6 n Hd) as [->| ->]; reflexivity. }
  split.
  - intros y Hy [b [Hb1 Hb2]]. pose proof (in_holders b x _ Hin Hb1) as Hp. rewrite <- Hpend in Hp.
    destruct (I4 b n Hp) as [D _]. pose proof (in_holders b y _ Hy Hb2). lia.
  - intros b Hb. destruct (v_avail (h_dev h) b) eqn:E; [|reflexivity].
    destruct (I1 b E) as [_ D]. pose proof (in_holders b x _ Hin Hb) as Hp. rewrite <- Hpend in Hp.
    specialize (D n). lia.
Qed.

Lemma c11_release_lemma : forall total h n x b, reach total h -> h_left h n = Some [ReleaseFrees] ->
  In (n, x) (h_freed h) -> inside b x = true ->
  exists h', step h h' /\ h_left h' n = Some [] /\ v_avail (h_dev h') b = true.
Proof.
  intros total h n x b Hr Hl Hf Hb. destruct (reach_inv total h Hr) as [I1 [I2 [I3 [I4 [I5 _]]]]].
  eexists. split; [eapply s_flush_part; exact Hl|]. cbn. unfold set_left. rewrite Nat.eqb_refl. split; [reflexivity|].
  rewrite free_list. pose proof (in_holders b x _ (I5 _ _ Hf) Hb). apply orb_true_iff. left. lia.
Qed.

Lemma c11_owner_lemma : forall total h, reach total h ->
  forall b, (holders b (h_owned h) + (if v_avail (h_dev h) b then 1 else 0) <= 1)%nat.
Proof.
  intros total h Hr b. destruct (reach_inv total h Hr) as [I1 [I2 _]]. specialize (I2 b).
  destruct (v_avail (h_dev h) b) eqn:E; [|lia]. destruct (I1 b E). lia.
Qed.
