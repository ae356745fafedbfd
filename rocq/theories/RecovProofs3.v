(** * Proofs about the walk over the links after a crash: the theorem. *)
From Coq Require Import ZArith List Bool Arith Lia Permutation.
From Verif Require Import Base WbModel WbSpec WbProofs WbFlushProofs WbProperties DagModel DagSpec DagProofs DagProofs2
  DagProofs3 DagProperties LeafCrashModel LeafCrashSpec LeafCrashProofs LeafCrashProofs2 LeafCrashProofs3
  RecovModel RecovSpec RecovProofs RecovProofs2.
Import ListNotations.

(** ** A rank that grows along the links *)
Section Rank.
Variable lvl : nat -> nat.
Variable pos : nat -> Z.
Variable ids : list nat.
Definition lowerb (d u : nat) : bool :=
  (lvl d <? lvl u)%nat || (Nat.eqb (lvl d) (lvl u) && Z.ltb (pos u) (pos d)).
Lemma lowerb_iff d u : lowerb d u = true <-> lower lvl pos d u.
Proof.
  unfold lowerb, lower. rewrite orb_true_iff, andb_true_iff, Nat.ltb_lt, Nat.eqb_eq, Z.ltb_lt. tauto.
Qed.
Definition rankof (b : nat) : nat := length (filter (fun y => lowerb y b) ids).
Lemma filter_lt (f h : nat -> bool) x : forall l, In x l -> (forall y, f y = true -> h y = true) -> f x = false -> h x = true ->
  length (filter f l) < length (filter h l).
Proof.
  intros l Hx Hi Hf Hh.
  assert (Hle : forall k, length (filter f k) <= length (filter h k)).
  { induction k as [|y k IH]; cbn; [lia|]. destruct (f y) eqn:E; [rewrite (Hi y E); cbn; lia|]. destruct (h y); cbn; lia. }
  induction l as [|y l IH]; [destruct Hx|]. cbn. destruct Hx as [->|Hx].
  - rewrite Hf, Hh. cbn. specialize (Hle l). lia.
  - specialize (IH Hx). destruct (f y) eqn:E; [rewrite (Hi y E); cbn; lia|]. destruct (h y); cbn; lia.
Qed.
Lemma rank_up b u : In b ids -> lower lvl pos b u -> rankof b < rankof u.
Proof.
  intros Hb Hl. apply (filter_lt _ _ b); [assumption| | |now apply lowerb_iff].
  - intros y Hy. apply lowerb_iff in Hy. apply lowerb_iff. unfold lower in *. lia.
  - destruct (lowerb b b) eqn:E; [|reflexivity]. apply lowerb_iff in E. unfold lower in E. lia.
Qed.
Lemma rank_lt b : In b ids -> rankof b < length ids.
Proof.
  intros Hb. assert (E : length ids = length (filter (fun _ => true) ids)) by (clear; induction ids as [|x l IH]; cbn; congruence).
  rewrite E. apply (filter_lt _ _ b); auto. destruct (lowerb b b) eqn:E2; [|reflexivity]. apply lowerb_iff in E2. unfold lower in E2. lia.
Qed.
End Rank.

Lemma in_repair ismeta d landed vs b : In (Repair b) (map (evof ismeta d landed) vs) <-> In b vs /\ ok ismeta landed b = false.
Proof.
  rewrite in_map_iff. split.
  - intros (x & X1 & X2). unfold evof in X1. destruct (ok ismeta landed x) eqn:E.
    + destruct (rb_up (d_buf d x)) as [u|]; [destruct (ismeta u)|]; discriminate.
    + injection X1 as ->. auto.
  - intros [H1 H2]. exists b. unfold evof. now rewrite H2.
Qed.

Section Thm.
Variable isnew : nat -> bool.
Variable lvl : nat -> nat.
Variable pos : nat -> Z.
Variable ismeta : nat -> bool.

Theorem recov_core : forall l rows w j order worder d evs s landed,
  strict isnew lvl pos ismeta [] [] l = true -> roots_free (wb_init isnew) l = true ->
  roots_written l -> written l <> [] -> rows_ok lvl isnew rows l ->
  wrunj (wb_init isnew) l = Some (w, j) -> Permutation worder (w_list w) ->
  qd_ok evs -> frun true (flush_init w worder) evs = Some s ->
  NoDup order -> (forall x, In x order <-> In x (named j)) -> rebuild ismeta j order = Some d ->
  consistent (history s) landed ->
  exists q, walk ismeta d landed order = Some q /\
    (q_del q = filter (delb ismeta d landed) order /\ q_kept q = filter (keptb ismeta d landed) order /\
     DInv isnew lvl pos ismeta d /\ (forall b, rb_freed (d_buf d b) = merged l b)) /\
    (forall b, ismeta b = false ->
       (In (Repair b) (q_log q) <->
        landed b = false /\ exists h, under w (merged l) h b /\ landed h = true /\ isnew h = false /\ merged l h = false)) /\
    (forall l1 b l2, q_log q = l1 ++ Repair b :: l2 -> ~ In (Repair b) l1 /\ ~ In (Repair b) l2 /\
       forall x, merged l x = false -> under w (merged l) x b -> In (Repair x) (q_log q) -> In (Repair x) l1) /\
    (forall b, mended (q_log q) b -> landed b = false \/ ismeta b = true) /\
    (forall l1 b l2, q_log q = l1 ++ Free b :: l2 -> ~ In (Free b) l1 /\ forall x, ~ mended l2 x) /\
    (forall b, (forall u, rb_up (d_buf d b) = Some u -> ismeta u = false) ->
       (In (Free b) (q_log q) <-> decide d landed b = Deleted \/ decide d landed b = Dropped /\ merged l b = true) /\
       (In b (q_kept q) <-> decide d landed b = Restored \/ decide d landed b = Committed)).
Proof.
  intros l rows w j order worder d evs s landed HS HRF HRW HW HR HJ HP HQ HF HND HO HB HC.
  destruct (run_ok isnew lvl pos ismeta l _ _ _ _ _ _ (rinv_init isnew lvl pos ismeta) HS)
    as (w0 & j0 & d0 & intro & roots & gone & E & P & R & I & A).
  rewrite HJ in E. injection E as <- <-. cbn [orb] in *.
  assert (R0 := R). destruct R as [HL HN HD Hnw Hfr Hg].
  destruct (modify_all_ok isnew lvl pos ismeta order d0 HD) as (d' & M & HD' & Hids & X & Hfree & Hout & N2 & F2).
  assert (HB0 := HB).
  unfold rebuild in HB. rewrite P, M in HB. destruct (forallb _ order); [|discriminate]. injection HB as ->.
  assert (HidsN : forall x, In x (d_ids d) <-> In x (named j)).
  { intros x. rewrite Hids, I. cbn. tauto. }
  assert (Hrf : forall b, rb_freed (d_buf d b) = merged l b) by (intros b; rewrite F2; apply Hfr).
  assert (HX : forall b u, nxt (ups d0) (merged l) b u <-> ups d b = Some u).
  { assert (HY : forall b u, ups d b = Some u -> merged l u = false).
    { intros b u Hu. rewrite <- Hrf. assert (Hb : In b order) by (apply HO, HidsN; apply (di_up _ _ _ _ _ HD') in Hu; tauto).
      unfold frd in Hfree. rewrite F2. exact (Hfree b u Hb Hu). }
    intros b u. assert (XX : nxt (ups d0) (merged l) b u <-> nxt (ups d) (frd d) b u).
    { rewrite <- X. split; apply nxt_ext; auto; intros y; unfold frd; now rewrite Hfr. }
    rewrite XX. split.
    - intros H. apply nxt_unfold in H. destruct H as [y [Y1 Y2]].
      assert (Z : frd d y = false) by (unfold frd; rewrite Hrf; eauto). rewrite Z in Y2. congruence.
    - intros H. apply NHere; [assumption|]. unfold frd. rewrite Hrf. eauto. }
  assert (HY : forall b u, ups d b = Some u -> merged l u = false).
  { intros b u Hu. rewrite <- Hrf. assert (Hb : In b order) by (apply HO, HidsN; apply (di_up _ _ _ _ _ HD') in Hu; tauto).
    unfold frd in Hfree. rewrite F2. exact (Hfree b u Hb Hu). }
  assert (HNU : forall b u, merged l b = false -> (rb_up (d_buf d b) = Some u <-> next_up w (merged l) b u)).
  { destruct (c98_links_rebuilt isnew lvl pos ismeta l order HS) as (w1 & j1 & EJ & HR1).
    rewrite HJ in EJ. injection EJ as <- <-. destruct (HR1 HO) as (d1 & ED & _ & _ & _ & _ & HLk).
    rewrite HB0 in ED. injection ED as <-. exact (HLk HRF). }
  (* the hypotheses of the walk *)
  assert (Hmeta : forall b u, ups d b = Some u -> ismeta u = false -> exists u0, ups d0 b = Some u0 /\ ismeta u0 = false).
  { intros b u Hu Hm. apply HX in Hu. apply nxt_unfold in Hu. destruct Hu as [u0 [Y1 Y2]]. exists u0. split; [assumption|].
    destruct (ismeta u0) eqn:Em; [|reflexivity]. destruct (merged l u0); [|congruence].
    apply nxt_unfold in Y2. destruct Y2 as [y [Y3 _]]. rewrite (di_meta _ _ _ _ _ HD u0 Em) in Y3. discriminate. }
  assert (Hdn : forall b u, rb_up (d_buf d b) = Some u -> ismeta u = false -> moving d b = false ->
            isnew b = false /\ exists x, rb_up (d_buf d x) = Some b).
  { intros b u Hu Hm Hmv. destruct (Hmeta b u Hu Hm) as (u0 & U1 & U2).
    destruct (HR (lvl b)) as (Q1 & Q2 & Q3). destruct (row_run lvl isnew (lvl b) (rows (lvl b)) l) as [row'|] eqn:Er; [|congruence].
    destruct (run_row isnew lvl pos ismeta (lvl b) l _ _ _ _ _ _ _ _ _ _ _ _ (rinv_init isnew lvl pos ismeta) HS
                (row_init isnew lvl pos ismeta (lvl b) _ Q1 Q2) Er HJ P) as (i' & r' & g' & Z1 & Z2). cbn [orb] in *.
    unfold moving in Hmv. apply orb_false_iff in Hmv. destruct Hmv as [Hmv1 Hmv2]. rewrite Hrf in Hmv2.
    assert (Hnb : isnew b = false).
    { destruct (isnew b) eqn:En; [|reflexivity]. rewrite N2, (ri_new _ _ _ _ _ _ _ _ _ _ Z1), En in Hmv1. cbn in Hmv1.
      destruct Z2 as (_ & _ & Z2). assert (Hin : In b i') by (apply Z2; [congruence|assumption]). apply mem_iff in Hin. congruence. }
    split; [assumption|].
    destruct (row_down isnew lvl pos ismeta (lvl b) _ _ _ _ _ _ b u0 Z2 eq_refl Hnb Hmv2 U1 U2) as (x & Hx).
    exists x. now apply HX in Hx. }
  assert (Hmv : forall b, moving d b = true -> rb_up (d_buf d b) <> None).
  { intros b Hb. apply (di_some _ _ _ _ _ HD'). unfold moving in Hb. now apply orb_true_iff in Hb. }
  assert (Hupok : forall b u, rb_up (d_buf d b) = Some u -> In b (d_ids d) /\ In u (d_ids d) /\ rb_new (d_buf d u) = false /\ rb_freed (d_buf d u) = false).
  { intros b u Hu. destruct (di_up _ _ _ _ _ HD' b u Hu) as (V1 & V2 & V3 & V4). ands; auto.
    - destruct (rb_new (d_buf d u)) eqn:En; [|reflexivity]. apply (di_new _ _ _ _ _ HD') in En. congruence.
    - rewrite Hrf. eauto. }
  assert (Hcl : forall b u, rb_up (d_buf d b) = Some u -> ok ismeta landed u = true -> rb_freed (d_buf d b) = false -> landed b = true).
  { intros b u Hu Hk Hb. rewrite Hrf in Hb. unfold ok in Hk. apply andb_true_iff in Hk. destruct Hk as [Hk _].
    apply HC in Hk. apply in_split in Hk. destruct Hk as (h1 & h2 & El). apply HC. rewrite El. apply in_app_iff. left.
    exact (c98_below_on_disk isnew lvl pos ismeta l order worder w j d evs s b u HS HRF HRW HW HJ HP HQ HF HO HB0 Hb Hu h1 h2 El). }
  destruct (walk_ok ismeta d landed (rankof lvl pos (d_ids d))) with (order := order)
    as (q & vs & E1 & E2 & E3 & E4 & E5 & E6 & E7 & E8); auto.
  { exact (di_nd _ _ _ _ _ HD'). }
  { intros b u Hu. apply (di_up _ _ _ _ _ HD') in Hu. apply rank_up; tauto. }
  { intros b Hb. now apply rank_lt. }
  { intros u. exact (di_cnt _ _ _ _ _ HD' u). }
  { exact (di_meta _ _ _ _ _ HD'). }
  { intros b u H1 H2 H3. now apply (Hdn b u). }
  { intros x. now rewrite HO, HidsN. }
  exists q. split; [exact E1|]. split; [ands; assumption|].
  assert (Hkn : forall x, In x order <-> In x (d_ids d)) by (intros x; now rewrite HO, HidsN).
  assert (Tu : forall b u, tc d b u -> merged l b = false -> under w (merged l) b u).
  { intros b u H. induction H as [b u H|b m u H H2 IH]; intros Hb.
    - apply UStep. now apply HNU.
    - eapply UTrans; [apply HNU; eassumption|]. apply IH. eauto. }
  assert (Ut : forall b u, under w (merged l) b u -> merged l b = false -> tc d b u).
  { intros b u H. induction H as [b u H|b m u H H2 IH]; intros Hb; apply (HNU _ _ Hb) in H.
    - now apply T1.
    - eapply T2; [exact H|]. apply IH. eauto. }
  assert (Hlog : forall b, In (Repair b) (q_log q) <-> In b vs /\ ok ismeta landed b = false).
  { intros b. rewrite E2, !in_app_iff, in_repair. split; [|tauto]. intros [H|[H|H]]; [assumption| |];
      apply in_map_iff in H; destruct H as (? & H & _); discriminate. }
  assert (HmT : forall h u, tc d h u -> ismeta u = false -> exists p, rb_up (d_buf d h) = Some p /\ ismeta p = false).
  { intros h u H Hm. destruct H as [b u H|b m u H H2]; [eauto|]. exists m. split; [assumption|].
    destruct (ismeta m) eqn:Em; [|reflexivity]. apply (di_meta _ _ _ _ _ HD') in Em. unfold ups in Em. inversion H2; congruence. }
  assert (Hnok : forall b, ismeta b = false -> (ok ismeta landed b = false <-> landed b = false)).
  { intros b Hb. unfold ok. rewrite Hb, andb_true_r. tauto. }
  split; [|split; [|split; [|split]]].
  - intros b Hb. rewrite Hlog, (Hnok b Hb). split.
    + intros [H1 H2]. split; [assumption|]. apply (Hnok b Hb) in H2. apply (E6 b Hb H2) in H1. destruct H1 as (h & T & T2 & T3).
      destruct (HmT h b T Hb) as (p & T4 & T5). destruct (Hdn h p T4 T5 T3) as [T6 _].
      unfold moving in T3. apply orb_false_iff in T3. destruct T3 as [_ T3]. rewrite Hrf in T3. exists h. ands; auto.
    + intros (H1 & h & H2 & H3 & H4 & H5). split; [|assumption]. apply (Hnok b Hb) in H1. apply (E6 b Hb H1). exists h.
      split; [auto|]. split; [assumption|]. unfold moving. rewrite Hrf, H5. apply orb_false_iff. split; [|reflexivity].
      destruct (rb_new (d_buf d h)) eqn:En; [|reflexivity]. apply (di_new _ _ _ _ _ HD') in En. congruence.
  - intros l1 b l2 El.
    assert (Hsp : exists v1 v2 r, vs = v1 ++ b :: v2 /\ l1 = map (evof ismeta d landed) v1 /\
              l2 = map (evof ismeta d landed) v2 ++ r /\ (forall x, ~ In (Repair x) r)).
    { rewrite E2 in El. set (r := map Pruned (q_pruned q) ++ map Free (q_del q)) in *.
      assert (Hr : forall x, ~ In (Repair x) r).
      { intros x Hx. unfold r in Hx. apply in_app_iff in Hx. destruct Hx as [Hx|Hx]; apply in_map_iff in Hx; destruct Hx as (? & Hx & _); discriminate. }
      clearbody r. clear - El Hr. revert l1 El. induction vs as [|y vs IH]; intros l1 El; cbn in El.
      - exfalso. apply (Hr b). rewrite El. apply in_app_iff. right. now left.
      - destruct l1 as [|e l1]; cbn in El; injection El as El1 El.
        + assert (Hi : In (Repair b) (map (evof ismeta d landed) [y])) by (left; assumption).
          apply in_repair in Hi. destruct Hi as [[Hi|[]] _]. subst y. exists [], vs, r. ands; auto.
        + destruct (IH l1 El) as (v1 & v2 & r' & V1 & V2 & V3 & V4). exists (y :: v1), v2, r'. subst. ands; auto. }
    destruct Hsp as (v1 & v2 & r & V1 & V2 & V3 & V4). rewrite V1 in E5. apply NoDup_remove_2 in E5. rewrite in_app_iff in E5.
    split; [|split].
    + intros H. rewrite V2 in H. apply in_repair in H. tauto.
    + intros H. rewrite V3 in H. apply in_app_iff in H. destruct H as [H|H]; [apply in_repair in H; tauto|now apply V4 in H].
    + intros x Hm Hu Hx. apply Hlog in Hx. destruct Hx as [Hx1 Hx2]. rewrite V2. apply in_repair. split; [|assumption].
      exact (E7 v1 b v2 V1 x (Ut x b Hu Hm) Hx1).
  - intros b [Hb|Hb].
    + apply Hlog in Hb. apply not_ok. tauto.
    + apply E8. rewrite E2, !in_app_iff in Hb. destruct Hb as [Hb|[Hb|Hb]]; apply in_map_iff in Hb; destruct Hb as (y & Y1 & Y2).
      * unfold evof in Y1. destruct (ok ismeta landed y); [|discriminate]. destruct (rb_up (d_buf d y)) as [u|]; [destruct (ismeta u)|]; discriminate.
      * injection Y1 as ->. assumption.
      * discriminate.
  - intros l1 b l2 El. rewrite E2 in El. rewrite app_assoc in El. set (a := map (evof ismeta d landed) vs ++ map Pruned (q_pruned q)) in *.
    assert (Ha : forall x, ~ In (Free x) a).
    { intros x Hx. unfold a in Hx. apply in_app_iff in Hx. destruct Hx as [Hx|Hx]; apply in_map_iff in Hx; destruct Hx as (y & Y1 & _); [|discriminate].
      unfold evof in Y1. destruct (ok ismeta landed y); [|discriminate]. destruct (rb_up (d_buf d y)) as [u|]; [destruct (ismeta u)|]; discriminate. }
    assert (Hdel : NoDup (q_del q)) by (rewrite E3; now apply NoDup_filter).
    assert (Hsp : exists f1 f2, q_del q = f1 ++ b :: f2 /\ l1 = a ++ map Free f1 /\ l2 = map Free f2).
    { clearbody a. clear - El Ha. revert l1 El. induction a as [|e a IH]; intros l1 El; cbn in El.
      - clear Ha. revert l1 El. induction (q_del q) as [|y k IH]; intros l1 El; [destruct l1; discriminate|].
        destruct l1 as [|e l1]; cbn in El.
        + injection El as -> <-. exists [], k. auto.
        + injection El as <- El. destruct (IH l1 El) as (f1 & f2 & -> & -> & ->). exists (y :: f1), f2. auto.
      - destruct l1 as [|e' l1]; cbn in El; injection El as -> El.
        + exfalso. apply (Ha b). now left.
        + destruct IH with (l1 := l1) as (f1 & f2 & G1 & G2 & G3); auto.
          { intros x Hx. apply (Ha x). now right. }
          exists f1, f2. subst. auto. }
    destruct Hsp as (f1 & f2 & G1 & G2 & G3). split.
    + intros H. rewrite G2 in H. apply in_app_iff in H. destruct H as [H|H]; [now apply Ha in H|].
      apply in_map_iff in H. destruct H as (y & Y1 & Y2). injection Y1 as ->. rewrite G1 in Hdel. apply NoDup_remove_2 in Hdel.
      apply Hdel. apply in_app_iff. now left.
    + intros x [H|H]; rewrite G3 in H; apply in_map_iff in H; destruct H as (y & Y1 & _); discriminate.
  - intros b Hbm.
    assert (Hfree2 : In (Free b) (q_log q) <-> In b (q_del q)).
    { rewrite E2, !in_app_iff. split.
      - intros [H|[H|H]]; apply in_map_iff in H; destruct H as (y & Y1 & Y2); [|discriminate|now injection Y1 as ->].
        unfold evof in Y1. destruct (ok ismeta landed y); [|discriminate]. destruct (rb_up (d_buf d y)) as [u|]; [destruct (ismeta u)|]; discriminate.
      - intros H. right. right. now apply in_map. }
    rewrite Hfree2, E3, E4, !filter_In, <- Hrf. unfold delb, keptb.
    assert (Hcom : forall n u, rb_up (d_buf d b) = Some u -> committed n d landed (Some u) = com ismeta d landed b).
    { intros n u Hu. unfold com, ok. rewrite Hu, (Hbm u Hu). destruct (Hupok b u Hu) as (_ & _ & _ & Z). destruct n; cbn [committed]; rewrite Z; now rewrite andb_true_r. }
    assert (Hin : moving d b = true -> In b order).
    { intros Hm. apply Hkn. destruct (rb_up (d_buf d b)) as [u|] eqn:Eu; [|now apply Hmv in Hm]. now apply (Hupok b u). }
    unfold decide, moving in *. destruct (rb_freed (d_buf d b)) eqn:Ef.
    + destruct (rb_up (d_buf d b)) as [u|] eqn:Eu; [|apply Hmv in Eu; [destruct Eu|now rewrite Ef, orb_true_r]].
      assert (Ec : committed (S (length (d_ids d))) d landed (Some b) = com ismeta d landed b).
      { cbn [committed]. rewrite Ef, Eu. now apply Hcom. }
      rewrite Ec. specialize (Hin (orb_true_r _)).
      destruct (com ismeta d landed b), (rb_new (d_buf d b)); cbn; split; split; intros H; try tauto;
        try (destruct H as [H|H]; try discriminate; destruct H; discriminate); try (destruct H; discriminate); auto.
    + cbn [andb]. destruct (rb_new (d_buf d b)) eqn:En.
      * cbn [orb] in Hin. specialize (Hin eq_refl). destruct (rb_up (d_buf d b)) as [u|] eqn:Eu; [|apply Hmv in Eu; [destruct Eu|now rewrite En]].
        rewrite (Hcom _ u eq_refl). assert (Ec : committed (S (length (d_ids d))) d landed (Some b) = landed b) by (cbn [committed]; now rewrite Ef).
        rewrite Ec. assert (Hl : com ismeta d landed b = true -> landed b = true).
        { unfold com. rewrite Eu. intros Z. exact (Hcl b u Eu Z Ef). }
        destruct (com ismeta d landed b) eqn:Eco; [rewrite (Hl eq_refl)|rewrite andb_false_r]; cbn; split; split; intros H; try tauto;
          try (destruct H as [H|H]; try discriminate; destruct H; discriminate); try (destruct H; discriminate); auto.
      * cbn; split; split; intros H; try tauto;
          try (destruct H as [H|H]; try discriminate; destruct H; discriminate); try (destruct H; discriminate); auto.
Qed.

Theorem recov_thm : forall l rows w j order worder d evs s landed,
  strict isnew lvl pos ismeta [] [] l = true -> roots_free (wb_init isnew) l = true ->
  roots_written l -> written l <> [] -> rows_ok lvl isnew rows l ->
  wrunj (wb_init isnew) l = Some (w, j) -> Permutation worder (w_list w) ->
  qd_ok evs -> frun true (flush_init w worder) evs = Some s ->
  NoDup order -> (forall x, In x order <-> In x (named j)) -> rebuild ismeta j order = Some d ->
  consistent (history s) landed ->
  exists q, walk ismeta d landed order = Some q /\
    (forall b, ismeta b = false ->
       (In (Repair b) (q_log q) <->
        landed b = false /\ exists h, under w (merged l) h b /\ landed h = true /\ isnew h = false /\ merged l h = false)) /\
    (forall l1 b l2, q_log q = l1 ++ Repair b :: l2 -> ~ In (Repair b) l1 /\ ~ In (Repair b) l2 /\
       forall x, merged l x = false -> under w (merged l) x b -> In (Repair x) (q_log q) -> In (Repair x) l1) /\
    (forall b, mended (q_log q) b -> landed b = false \/ ismeta b = true) /\
    (forall l1 b l2, q_log q = l1 ++ Free b :: l2 -> ~ In (Free b) l1 /\ forall x, ~ mended l2 x) /\
    (forall b, (forall u, rb_up (d_buf d b) = Some u -> ismeta u = false) ->
       (In (Free b) (q_log q) <-> decide d landed b = Deleted \/ decide d landed b = Dropped /\ merged l b = true) /\
       (In b (q_kept q) <-> decide d landed b = Restored \/ decide d landed b = Committed)).
Proof.
  intros l rows w j order worder d evs s landed HS HRF HRW HW HR HJ HP HQ HF HND HO HB HC.
  destruct (recov_core l rows w j order worder d evs s landed HS HRF HRW HW HR HJ HP HQ HF HND HO HB HC) as (q & H1 & _ & H2).
  exists q. auto.
Qed.
End Thm.
