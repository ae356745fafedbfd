(** A new root and a root that goes. *)
From Coq Require Import ZArith List Bool Arith Lia.
From Verif Require Import Base ConcBtModel ConcBtSpec ConcBtLists ConcBtSpread ConcBtTree.
Import ListNotations.
Local Open Scope Z_scope.

Section Above.
Variables (s : st) (Hwf : wf s) (Hfresh : forall x, next s <= x -> dead s x = false).
Let r := next s.
Let s1 := St (fun x => if x =? r then Nd (S (lvl (h s (root s)))) [(None, root s)] else h s x)
             r (r + 1) (gen s) (dead s) (thr s).

Lemma ab_r : h s1 r = Nd (S (H s)) [(None, root s)].
Proof. cbn. now rewrite Z.eqb_refl. Qed.
Lemma ab_old : forall d x, rch s d x -> h s1 x = h s x.
Proof.
  intros d x Rx. cbn. pose proof (wf_next _ Hwf _ _ Rx). destruct (Z.eqb_spec x r); [unfold r in *; lia|reflexivity].
Qed.
Lemma ab_reach : forall d x, rch s1 d x -> (d = O /\ x = r) \/ exists e, d = S e /\ rch s e x.
Proof.
  intros d x. change (root s1) with r. induction 1 as [|d p b c Rp IH Lp Hc]; [left; auto|]. right.
  destruct IH as [[-> ->]|(e & -> & Re)].
  - rewrite ab_r in Hc. destruct Hc as [[= <- <-]|[]]. exists O. split; [reflexivity|constructor].
  - rewrite (ab_old _ _ Re) in Lp, Hc. exists (S e). split; [reflexivity|]. econstructor; eassumption.
Qed.
Lemma ab_walk : forall k d, (d <= H s)%nat -> wlk s1 k (S d) = wlk s k d.
Proof.
  intros k. induction d as [|d IH]; intros L.
  - cbn [walk]. change (root s1) with r. rewrite ab_r. reflexivity.
  - change (wlk s1 k (S (S d))) with (match wlk s1 k (S d) with Some n => option_map snd (pick k (ents (h s1 n))) | None => None end).
    rewrite IH by lia. cbn [walk]. destruct (wlk s k d) as [p|] eqn:Ep; [|reflexivity].
    rewrite (ab_old d p); [reflexivity|]. apply walk_reach with k; auto; lia.
Qed.
Lemma ab_H : H s1 = S (H s).
Proof. change (root s1) with r. rewrite ab_r. reflexivity. Qed.
Lemma ab_wf : wf s1.
Proof.
  constructor.
  - intros d x Rx. rewrite ab_H. destruct (ab_reach _ _ Rx) as [[-> ->]|(e & -> & Re)].
    + rewrite ab_r. cbn. lia.
    + rewrite (ab_old _ _ Re). pose proof (wf_lvl _ Hwf _ _ Re). lia.
  - intros d x Rx. destruct (ab_reach _ _ Rx) as [[-> ->]|(e & -> & Re)].
    + rewrite ab_r. cbn. tauto.
    + rewrite (ab_old _ _ Re). eapply wf_asc; eassumption.
  - intros d x Rx. destruct (ab_reach _ _ Rx) as [[-> ->]|(e & -> & Re)].
    + rewrite ab_r. discriminate.
    + rewrite (ab_old _ _ Re). eapply wf_some; eassumption.
  - intros d x Rx. destruct (ab_reach _ _ Rx) as [[-> ->]|(e & -> & Re)].
    + intros _. rewrite ab_r. cbn. constructor; [intros []|constructor].
    + rewrite (ab_old _ _ Re). eapply wf_nodup; eassumption.
  - intros d p q b b' c Rp Rq. destruct (ab_reach _ _ Rp) as [[-> ->]|(e & -> & Re)];
    destruct (ab_reach _ _ Rq) as [[Ed ->]|(e' & Ed & Re')]; try discriminate; [reflexivity|].
    injection Ed as <-. rewrite (ab_old _ _ Re), (ab_old _ _ Re'). intros. eapply (wf_parent _ Hwf e p q); eassumption.
  - intros d p b c Rp. destruct (ab_reach _ _ Rp) as [[-> ->]|(e & -> & Re)].
    + rewrite ab_r. intros _ [[= <- <-]|[]]. rewrite (ab_old O) by constructor. now apply wf_root.
    + rewrite (ab_old _ _ Re). intros Lp Hc. assert (Rc : rch s (S e) c) by (econstructor; eassumption).
      rewrite (ab_old _ _ Rc). intros. eapply (wf_last _ Hwf e p); eassumption.
  - intros _. change (root s1) with r. rewrite ab_r. reflexivity.
  - intros d x y v Rx. destruct (ab_reach _ _ Rx) as [[-> ->]|(e & -> & Re)].
    + reflexivity.
    + rewrite (ab_old _ _ Re), ab_walk by (eapply reach_le; eassumption). intros. eapply wf_key; eassumption.
  - intros d x b v Rx. destruct (ab_reach _ _ Rx) as [[-> ->]|(e & -> & Re)].
    + rewrite ab_r. discriminate.
    + rewrite (ab_old _ _ Re). intros. eapply wf_leaf; eassumption.
  - intros d x Rx. cbn [next s1]. destruct (ab_reach _ _ Rx) as [[-> ->]|(e & -> & Re)]; [lia|].
    pose proof (wf_next _ Hwf _ _ Re). unfold r. lia.
  - intros d x Rx. cbn [dead s1]. destruct (ab_reach _ _ Rx) as [[-> ->]|(e & -> & Re)]; [apply Hfresh; unfold r; lia|].
    eapply wf_dead; eassumption.
Qed.
Lemma ab_value : forall k, value s1 k = value s k.
Proof.
  intros k. unfold value. rewrite ab_H, ab_walk by lia. destruct (wlk s k (H s)) as [n|] eqn:En; [|reflexivity].
  rewrite (ab_old (H s) n); [reflexivity|]. apply walk_reach with k; auto.
Qed.
Lemma grow_ok : forall parts s', grow s parts = Some s' ->
  wf s' /\ (forall x, next s' <= x -> dead s' x = false) /\ (forall k, value s' k = value s k) /\ thr s' = thr s.
Proof.
  intros parts s' E. unfold grow in E. fold r s1 in E.
  assert (F1 : forall x, next s1 <= x -> dead s1 x = false) by (intros x L; cbn in *; apply Hfresh; unfold r in *; lia).
  assert (R1 : rch s1 0%nat r) by constructor.
  assert (L1 : lvl (h s1 r) <> O) by (rewrite ab_r; discriminate).
  pose proof (rd_wf s1 s' ab_wf O r (root s) [] parts false F1 R1 L1 E) as W.
  ands; auto.
  - exact (rd_fresh s1 s' ab_wf O r (root s) [] parts false F1 R1 L1 E).
  - intros k. rewrite (rd_value s1 s' ab_wf O r (root s) [] parts false F1 R1 L1 E). apply ab_value.
  - rewrite (rd_thr s1 s' r (root s) [] parts false E). reflexivity.
Qed.
End Above.

Lemma collapse_ok : forall s s', wf s -> (forall x, next s <= x -> dead s x = false) -> collapse s = Some s' ->
  wf s' /\ (forall x, next s' <= x -> dead s' x = false) /\ (forall k, value s' k = value s k) /\ thr s' = thr s.
Proof.
  intros s s' Hwf Hf E. unfold collapse in E. destruct (H s) as [|L] eqn:EH; [discriminate|].
  destruct (ents (h s (root s))) as [|[[bz|] c] [|]] eqn:Ee; try discriminate. injection E as <-.
  set (s' := St (h s) c (next s) (gen s) (fun x => dead s x || (x =? root s)) (thr s)).
  assert (Rr : rch s 0%nat (root s)) by constructor.
  assert (Rc : rch s 1%nat c) by (econstructor; [exact Rr|lia|rewrite Ee; left; reflexivity]).
  assert (Re : forall d x, rch s' d x -> rch s (S d) x).
  { intros d x. cbn [h root s']. induction 1; [assumption|]. econstructor; eassumption. }
  assert (Wk : forall k d, wlk s' k d = wlk s k (S d)).
  { intros k. cbn [h root s']. induction d as [|d IH]; [cbn; rewrite Ee; reflexivity|].
    change (walk (h s) c k (S d)) with (match walk (h s) c k d with Some n => option_map snd (pick k (ents (h s n))) | None => None end).
    rewrite IH. reflexivity. }
  assert (HH : H s' = L). { pose proof (wf_lvl _ Hwf _ _ Rc). cbn. lia. }
  ands.
  - constructor.
    + intros d x Rx. rewrite HH. pose proof (wf_lvl _ Hwf _ _ (Re _ _ Rx)). cbn. lia.
    + intros d x Rx. apply (wf_asc _ Hwf _ _ (Re _ _ Rx)).
    + intros d x Rx. apply (wf_some _ Hwf _ _ (Re _ _ Rx)).
    + intros d x Rx. apply (wf_nodup _ Hwf _ _ (Re _ _ Rx)).
    + intros d p q b b' x Rp Rq. apply (wf_parent _ Hwf _ _ _ _ _ _ (Re _ _ Rp) (Re _ _ Rq)).
    + intros d p b x Rp. apply (wf_last _ Hwf _ _ _ _ (Re _ _ Rp)).
    + cbn. intros Lc. apply (wf_last _ Hwf O (root s) None c Rr); [lia|rewrite Ee; left; reflexivity|assumption].
    + intros d x z v Rx Hz. rewrite Wk. apply (wf_key _ Hwf _ _ _ _ (Re _ _ Rx) Hz).
    + intros d x b v Rx. apply (wf_leaf _ Hwf _ _ _ _ (Re _ _ Rx)).
    + intros d x Rx. apply (wf_next _ Hwf _ _ (Re _ _ Rx)).
    + intros d x Rx. cbn. pose proof (Re _ _ Rx) as Rx'. rewrite (wf_dead _ Hwf _ _ Rx'). cbn. apply Z.eqb_neq.
      intros ->. pose proof (reach_uniq _ Hwf _ _ _ Rx' Rr). discriminate.
  - cbn. intros x Hx. rewrite Hf by assumption. cbn. apply Z.eqb_neq. pose proof (wf_next _ Hwf _ _ Rr). lia.
  - intros k. unfold value. rewrite Wk, HH, EH. reflexivity.
  - reflexivity.
Qed.
