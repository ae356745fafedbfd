(** * Proofs about the blocks after a crash. *)
From Coq Require Import ZArith NArith List Bool Arith Lia Permutation.
From Verif Require Import Base WbModel WbSpec WbProofs WbFlushProofs WbProperties DagModel DagSpec DagProofs DagProofs2
  DagProofs3 DagProperties LeafCrashModel LeafCrashSpec LeafCrashProofs LeafCrashProofs2 LeafCrashProofs3
  RecovModel RecovSpec RecovProofs RecovProofs2 RecovProofs3 RecovBlkModel RecovBlkSpec.
From Verif Require FixedModel FixedSpec FixedProofs FixedProperties.
Import ListNotations.
Import FixedSpec.

Lemma fmem_iff x l : FixedModel.mem x l = true <-> In x l.
Proof.
  unfold FixedModel.mem. rewrite existsb_exists. split; [intros (y & H & E); apply N.eqb_eq in E; now subst|].
  intros H. exists x. split; [assumption|apply N.eqb_refl].
Qed.
Lemma in_upto : forall n a x, In x (FixedModel.upto a n) <-> (a <= x < a + N.of_nat n)%N.
Proof.
  induction n as [|n IH]; intros a x; cbn [FixedModel.upto In]; [lia|]. rewrite IH. lia.
Qed.

(** Shape of a run, by parts. *)
Lemma legal_app : forall l1 l2 u, legal_run u (l1 ++ l2) <-> legal_run u l1 /\ legal_run (urun u l1) l2.
Proof.
  induction l1 as [|o l1 IH]; intros l2 u; cbn; [tauto|]. rewrite IH. tauto.
Qed.
Lemma urun_app l1 l2 u : urun u (l1 ++ l2) = urun (urun u l1) l2.
Proof. apply fold_left_app. Qed.

Lemma replays : forall K u, FixedModel.f_active (u_alloc u) = false -> (forall x, In x K -> (x < FixedModel.f_total (u_alloc u))%N) ->
  let u' := urun u (map Replay K) in
  legal_run u (map Replay K) /\ FixedModel.f_active (u_alloc u') = false /\
  FixedModel.f_total (u_alloc u') = FixedModel.f_total (u_alloc u) /\
  (forall x, In x (u_owned u) \/ In x K -> In x (u_owned u')).
Proof.
  induction K as [|b K IH]; intros u Ha Ht u'; cbn in *; [ands; auto; tauto|].
  specialize (IH (ustep u (Replay b))). cbn in IH.
  assert (E1 : FixedModel.f_active (FixedModel.reserve_on_cache (u_alloc u) b) = false) by (unfold FixedModel.reserve_on_cache; now rewrite Ha).
  assert (E2 : FixedModel.f_total (FixedModel.reserve_on_cache (u_alloc u) b) = FixedModel.f_total (u_alloc u)) by (unfold FixedModel.reserve_on_cache; now rewrite Ha).
  destruct IH as (H1 & H2 & H3 & H4); [assumption|rewrite E2; auto|].
  split; [split; [auto|exact H1]|]. split; [exact H2|]. split; [exact (eq_trans H3 E2)|].
  intros x Hx. apply H4. destruct (FixedModel.mem b (u_owned u)) eqn:E.
  - apply fmem_iff in E. destruct Hx as [Hx|[<-|Hx]]; auto.
  - cbn. destruct Hx as [Hx|[<-|Hx]]; auto.
Qed.
Lemma allocs : forall n u, let u' := urun u (repeat Alloc n) in
  legal_run u (repeat Alloc n) /\ FixedModel.f_active (u_alloc u') = FixedModel.f_active (u_alloc u) /\
  (forall x, In x (u_owned u) -> In x (u_owned u')).
Proof.
  induction n as [|n IH]; intros u u'; cbn in *; [ands; auto|].
  specialize (IH (ustep u Alloc)). cbn in IH. destruct IH as (H1 & H2 & H3).
  assert (E : FixedModel.f_active (u_alloc (ustep u Alloc)) = FixedModel.f_active (u_alloc u) /\ (forall x, In x (u_owned u) -> In x (u_owned (ustep u Alloc)))).
  { cbn. unfold FixedModel.alloc. destruct (FixedModel.pop _ _ _) as [[o q] rv]. destruct o; cbn; auto. }
  destruct E as [E1 E2]. split; [split; [exact I|exact H1]|]. split; [exact (eq_trans H2 E1)|]. intros x Hx. apply H3, E2, Hx.
Qed.
Lemma in_remove1 x b l : x <> b -> In x l -> In x (FixedSpec.remove1 b l).
Proof.
  intros Hn. induction l as [|y l IH]; cbn; [auto|]. destruct (N.eqb_spec b y) as [->|]; intros [H|H]; cbn; auto. congruence.
Qed.
Lemma frees : forall D u, FixedModel.f_active (u_alloc u) = true -> NoDup D -> (forall x, In x D -> In x (u_owned u)) ->
  let u' := urun u (map Free D) in
  legal_run u (map Free D) /\ FixedModel.f_active (u_alloc u') = true /\ (forall x, ~ In x D -> In x (u_owned u) -> In x (u_owned u')).
Proof.
  induction D as [|b D IH]; intros u Ha Hd Hi u'; cbn in *; [ands; auto|]. inversion Hd; subst.
  destruct (IH (ustep u (Free b))) as (X1 & X2 & X3); cbn; auto.
  { intros x Hx. apply in_remove1; [|auto]. intros ->. contradiction. }
  split; [split; [split; [auto|congruence]|exact X1]|]. split; [exact X2|]. intros x Hx Hx2. apply X3; [tauto|]. cbn. apply in_remove1; auto.
Qed.

Lemma blocks_run total bm K n m D :
  (forall x, In x K -> (x < total)%N) -> NoDup D -> (forall x, In x D -> (x < total)%N /\ bm x = true) ->
  let ops := map Replay K ++ repeat Alloc n ++ Recovered :: repeat Alloc m ++ map Free D in
  let u := urun (start total true bm) ops in
  legal_run (start total true bm) ops /\
  (forall x, ((x < total)%N /\ bm x = true) \/ In x K -> ~ In x D -> copies x (u_owned u) = 1%nat) /\
  (forall x, copies x (FixedModel.f_q (u_alloc u)) + copies x (u_owned u) = if (x <? total)%N then 1 else 0)%nat.
Proof.
  intros HK HD HDb ops u. set (u0 := start total true bm) in *.
  assert (Hown : forall x, (x < total)%N -> bm x = true -> In x (u_owned u0)).
  { intros x H1 H2. cbn. apply filter_In. split; [apply in_upto; lia|assumption]. }
  destruct (replays K u0 eq_refl HK) as (R1 & R2 & R3 & R4). set (u1 := urun u0 (map Replay K)) in *.
  destruct (allocs n u1) as (A1 & A2 & A3). set (u2 := urun u1 (repeat Alloc n)) in *.
  set (u3 := ustep u2 Recovered) in *.
  destruct (allocs m u3) as (B1 & B2 & B3). set (u4 := urun u3 (repeat Alloc m)) in *.
  destruct (frees D u4) as (F1 & F2 & F3); [rewrite B2; reflexivity|assumption| |].
  { intros x Hx. apply B3. cbn. apply A3, R4. left. destruct (HDb x Hx). now apply Hown. }
  assert (HL : legal_run u0 ops).
  { unfold ops. rewrite !legal_app. fold u1 u2. split; [assumption|]. split; [assumption|]. cbn [legal_run].
    split; [cbn; congruence|]. fold u3. rewrite legal_app. fold u4. auto. }
  assert (Eu : u = urun u4 (map Free D)).
  { unfold u, ops. rewrite !urun_app. fold u1 u2. cbn [urun fold_left]. fold u3. change (fold_left ustep ?a ?b) with (urun b a).
    rewrite urun_app. reflexivity. }
  split; [exact HL|]. split.
  - intros x Hx Hn. assert (Hi : In x (u_owned u)).
    { rewrite Eu. apply F3; [assumption|]. apply B3. cbn. apply A3, R4. destruct Hx as [[H1 H2]|Hx]; auto. }
    assert (H1 := FixedProperties.c09_single_owner total true bm ops HL x). fold u0 in H1. fold u in H1.
    enough (1 <= copies x (u_owned u)) by lia. clear - Hi. induction (u_owned u) as [|y l IH]; [destruct Hi|]. cbn.
    destruct Hi as [->|Hi]; [rewrite N.eqb_refl; lia|]. specialize (IH Hi). lia.
  - apply (FixedProperties.c09_conservation total true bm ops HL). fold u0. fold u. rewrite Eu. exact F2.
Qed.

Section Thm.
Variable isnew : nat -> bool.
Variable lvl : nat -> nat.
Variable pos : nat -> Z.
Variable ismeta : nat -> bool.

Theorem blocks_thm : forall l rows w j order worder d evs s landed total bm n m,
  crashed isnew lvl pos ismeta l rows w j order worder d evs s landed -> knows_old total bm isnew ismeta j ->
  (forall b, In b (named j) -> isnew b = true -> merged l b = true -> bm (blk b) = true) ->
  (forall b u, rb_up (d_buf d b) = Some u -> ismeta u = true -> isnew b = true -> bm (blk b) = true) ->
  exists q, walk ismeta d landed order = Some q /\
    let u := urun (start total true bm) (recovery_ops q n m) in
    (forall b, in_use total bm isnew d landed b -> copies (blk b) (u_owned u) = 1%nat) /\
    (forall x, copies x (FixedModel.f_q (u_alloc u)) + copies x (u_owned u) = if (x <? total)%N then 1 else 0)%nat.
Proof.
  intros l rows w j order worder d evs s landed total bm n m (HS & HRF & HRW & HW & HR & HJ & HP & HQ & HF & HND & HO & HB & HC) Hko Hcf Hrt.
  assert (Hlt : forall b, In b (named j) -> ismeta b = false -> (blk b < total)%N) by (intros b H1 H2; now apply (Hko b)).
  assert (Hold : forall b, In b (named j) -> ismeta b = false -> isnew b = false -> bm (blk b) = true) by (intros b H1 H2; now apply (Hko b)).
  destruct (recov_core isnew lvl pos ismeta l rows w j order worder d evs s landed HS HRF HRW HW HR HJ HP HQ HF HND HO HB HC)
    as (q & E & (E1 & E2 & HD & Hfr) & _ & _ & _ & _ & Hfate).
  exists q. split; [exact E|]. unfold recovery_ops.
  assert (Hn : forall b, rb_new (d_buf d b) = true -> isnew b = true) by exact (di_new _ _ _ _ _ HD).
  assert (Hnm : forall b, rb_up (d_buf d b) <> None -> ismeta b = false).
  { intros b Hb. destruct (ismeta b) eqn:Em; [|reflexivity]. apply (di_meta _ _ _ _ _ HD) in Em. contradiction. }
  assert (Hmv : forall b, moving d b = true -> rb_up (d_buf d b) <> None).
  { intros b Hb. apply (di_some _ _ _ _ _ HD). unfold moving in Hb. now apply orb_true_iff in Hb. }
  assert (Hdel : forall b, In b (q_del q) -> In b (named j) /\ moving d b = true /\ merged l b = true /\ decide d landed b <> Committed /\
            (isnew b = false -> decide d landed b = Deleted)).
  { intros b Hb. rewrite E1 in Hb. apply filter_In in Hb. destruct Hb as [Hb1 Hb2]. unfold delb in Hb2. apply andb_true_iff in Hb2.
    destruct Hb2 as [Hb2 Hb3]. split; [now apply HO|]. split; [unfold moving; rewrite Hb2; apply orb_true_r|]. split; [now rewrite <- Hfr|].
    unfold decide. rewrite Hb2. cbn [committed]. rewrite Hb2. split.
    - destruct (committed _ _ _ _); [discriminate|]. destruct (rb_new _); discriminate.
    - intros Hb4. assert (Z : rb_new (d_buf d b) = false) by (destruct (rb_new (d_buf d b)) eqn:En; [apply Hn in En; congruence|reflexivity]).
      rewrite Z, orb_false_r in Hb3. unfold com in Hb3. destruct (rb_up (d_buf d b)) as [u|] eqn:Eu; [|discriminate].
      destruct (rebuild_thm isnew lvl pos ismeta l order HS) as (w1 & j1 & EJ & HX). rewrite HJ in EJ. injection EJ as <- <-.
      destruct (HX HO) as (d1 & ED & Hids & _). rewrite HB in ED. injection ED as <-.
      assert (Hu : rb_freed (d_buf d u) = false).
      { unfold rebuild in HB. destruct (process_all empty j) as [d2|]; [|discriminate]. destruct (modify_all d2 order) as [d3|]; [|discriminate].
        destruct (forallb (sane ismeta (d_buf d3)) order) eqn:Es; [|discriminate]. injection HB as ->.
        rewrite forallb_forall in Es. specialize (Es b Hb1). unfold sane in Es. rewrite Eu in Es.
        destruct (rb_freed (d_buf d u)); [discriminate|reflexivity]. }
      assert (Hc : forall k, committed k d landed (Some u) = landed u) by (intros [|k]; cbn; now rewrite Hu).
      rewrite Hc. unfold ok in Hb3. apply andb_true_iff in Hb3. destruct Hb3 as [-> _]. reflexivity. }
  assert (Hkept : forall b, In b (q_kept q) -> In b (named j) /\ moving d b = true).
  { intros b Hb. rewrite E2 in Hb. apply filter_In in Hb. destruct Hb as [Hb1 Hb2]. split; [now apply HO|].
    unfold keptb in Hb2. unfold moving. destruct (rb_freed (d_buf d b)); [apply orb_true_r|]. apply andb_true_iff in Hb2. destruct Hb2 as [-> _]. reflexivity. }
  assert (Hcm : forall b, decide d landed b = Committed -> In b (q_kept q) \/ (isnew b = true /\ In b (named j) /\ bm (blk b) = true)).
  { intros b Hb. assert (Hnew : rb_new (d_buf d b) = true).
    { unfold decide in Hb. destruct (rb_freed _); [destruct (committed _ _ _ _); [discriminate|destruct (rb_new _); discriminate]|].
      destruct (rb_new (d_buf d b)); [reflexivity|discriminate]. }
    assert (Hup : rb_up (d_buf d b) <> None) by (apply Hmv; unfold moving; now rewrite Hnew).
    destruct (rb_up (d_buf d b)) as [u|] eqn:Eu; [|congruence].
    destruct (ismeta u) eqn:Em.
    - right. split; [now apply Hn|]. split; [|apply (Hrt b u Eu Em); now apply Hn].
      destruct (rebuild_thm isnew lvl pos ismeta l order HS) as (w1 & j1 & EJ & HX). rewrite HJ in EJ. injection EJ as <- <-.
      destruct (HX HO) as (d1 & ED & Hids & _). rewrite HB in ED. injection ED as <-.
      apply Hids. now apply (di_up _ _ _ _ _ HD b u).
    - left. assert (Hm : forall u', rb_up (d_buf d b) = Some u' -> ismeta u' = false) by (intros u' Hu'; congruence).
      apply (proj2 (Hfate b Hm)). now right. }
  pose proof (blocks_run total bm (map blk (q_kept q)) n m (map blk (q_del q))) as HBR. cbv zeta in HBR.
  rewrite !map_map in HBR. destruct HBR as (L1 & L2 & L3).
  - intros x Hx. apply in_map_iff in Hx. destruct Hx as (b & <- & Hb). apply Hkept in Hb. destruct Hb as [Hb1 Hb2].
    apply Hlt; [assumption|]. auto.
  - assert (Z : NoDup (q_del q)) by (rewrite E1; now apply NoDup_filter). clear - Z. induction (q_del q) as [|x k IH]; cbn; constructor.
    + inversion Z; subst. intros H. apply in_map_iff in H. destruct H as (y & H & Hy). unfold blk in H. apply Nnat.Nat2N.inj in H. now subst.
    + inversion Z; subst. auto.
  - intros x Hx. apply in_map_iff in Hx. destruct Hx as (b & <- & Hb). destruct (Hdel b Hb) as (D1 & D2 & D3 & D4 & D5).
    assert (Hm : ismeta b = false) by auto. split; [auto|].
    destruct (isnew b) eqn:En; [now apply Hcf|now apply Hold].
  - split; [|exact L3]. intros b Hb. apply L2.
    + destruct Hb as [(H1 & H2 & H3 & _)|Hb]; [left; auto|]. destruct (Hcm b Hb) as [X|(X1 & X2 & X3)]; [right; now apply in_map|].
      left. split; [|assumption]. apply Hlt; [assumption|].
      destruct (ismeta b) eqn:Em; [|reflexivity]. unfold decide in Hb. assert (Z := di_meta _ _ _ _ _ HD b Em). unfold ups in Z.
      destruct (rb_freed _); [destruct (committed _ _ _ _); [discriminate|destruct (rb_new _); discriminate]|].
      rewrite Z in Hb. cbn [committed] in Hb. rewrite andb_false_r in Hb. destruct (rb_new _); discriminate.
    + intros H. apply in_map_iff in H. destruct H as (y & H & Hy). unfold blk in H. apply Nnat.Nat2N.inj in H. subst y.
      destruct (Hdel b Hy) as (D1 & D2 & D3 & D4 & D5). destruct Hb as [(H1 & _ & _ & H4)|Hb]; [now apply H4, D5|contradiction].
Qed.
End Thm.

(** ** Computed cases *)
Lemma case_of (X : Type) (f : dag -> rst -> X) isnew lvl pos ismeta l rows evs order landed nm h x :
  strict isnew lvl pos ismeta [] [] l = true -> roots_free (wb_init isnew) l = true ->
  roots_written l -> written l <> [] -> rows_ok lvl isnew rows l -> qd_ok evs -> NoDup order ->
  match wrunj (wb_init isnew) l with
  | Some (w, j) => match frun true (flush_init w (w_list w)) evs, rebuild ismeta j order with
                   | Some s, Some d => match walk ismeta d landed order with
                                       | Some q => Some (named j, history s, f d q) | None => None end
                   | _, _ => None
                   end
  | None => None
  end = Some (nm, h, x) ->
  (forall y, In y order <-> In y nm) -> consistent h landed ->
  exists w j s d q, crashed isnew lvl pos ismeta l rows w j order (w_list w) d evs s landed /\
    named j = nm /\ walk ismeta d landed order = Some q /\ f d q = x.
Proof.
  intros H1 H2 H3 H4 H5 H6 H7 E Ho Hc.
  destruct (wrunj (wb_init isnew) l) as [[w j]|] eqn:Ej; [|discriminate].
  destruct (frun true (flush_init w (w_list w)) evs) as [s|] eqn:Es; [|discriminate].
  destruct (rebuild ismeta j order) as [d|] eqn:Ed; [|discriminate].
  destruct (walk ismeta d landed order) as [q|] eqn:Eq; [|discriminate].
  assert (E1 : named j = nm) by congruence. assert (E2 : history s = h) by congruence. assert (E3 : f d q = x) by congruence.
  exists w, j, s, d, q. split; [|auto]. unfold crashed. rewrite E1, E2. ands; auto.
Qed.
