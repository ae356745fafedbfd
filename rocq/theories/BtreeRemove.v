(** Remove of one key refines the sorted list. *)
From Coq Require Import ZArith NArith List Bool Lia.
From Coq Require Import ZifyBool ZifyNat ZifyN.
From Verif Require Import Base BtNodeModel BtNodeSpec BtNodeProofs BtreeModel BtreeInv.
From Verif Require Import BtreePut BtreeMerge BtreeMerge2.
Import ListNotations.

Section WithCfg.
Variable c : cfg.
Hypothesis Hok : cfg_ok c.

(** What a removal does to a list of entries. *)
Definition remove_ok (k : Z) (es es' : list (Z * N)) (st : status) (old : option N) : Prop :=
  st = (match assoc es k with Some _ => StSuccess | None => StNotFound end) /\
  old = assoc es k /\ es' = del_list k es.

Lemma merge_end_le : forall es ed i,
  (merge_end c es ed i <= i + 2)%nat.
Proof.
  intros es ed i. unfold merge_end. pose proof (ok_merge c Hok).
  destruct ed; lia.
Qed.

Lemma do_remove_ok : forall fuel h lo hi t nx k t' nx' st old,
  wf h lo hi t -> inb lo hi k ->
  do_remove c fuel nx t k = Ok (t', nx', st, old) ->
  wf h lo hi t' /\ lgood nx (leaves t) nx' (leaves t') /\
  remove_ok k (content t) (content t') st old.
Proof.
  induction fuel as [|fuel IH]; intros h lo hi t nx k t' nx' st old HW HK HR; [discriminate|].
  destruct h as [|h], t as [id next es|id next es ed]; cbn in HW; try contradiction;
    cbn [do_remove] in HR.
  - rewrite leaf_remove_ok in HR by apply HW. injection HR as <- <- <- <-.
    assert (HC : forall e, content (Leaf id next e) = e)
      by (intros; unfold content, items; cbn; apply app_nil_r).
    split; [|split].
    + cbn. now apply leaf_ok_del.
    + cbn [leaves]. apply lgood_same; [lia| |reflexivity]. cbn. auto.
    + rewrite !HC. unfold remove_ok. destruct (assoc es k); auto.
  - destruct HW as [HN HC].
    destruct (find_slot _ _ _ _ _ _ HC HK) as [p [u [x [q [m [HE [HI [HP [HB [HX HQ]]]]]]]]]].
    rewrite HI in HR. rewrite (child_at_slot _ _ _ _ _ _ HE) in HR.
    set (down := match do_remove c fuel nx x k with
                 | Stop s => Stop s
                 | Ok (x', nx', st, old) =>
                     let '(es', ed') := set_child es ed (length p) x' in
                     Ok (Inner id next es' ed', nx', st, old)
                 end) in HR.
    assert (Hdown : down = Ok (t', nx', st, old) ->
      wf (S h) lo hi t' /\ lgood nx (leaves (Inner id next es ed)) nx' (leaves t') /\
      remove_ok k (content (Inner id next es ed)) (content t') st old).
    { unfold down. clear HR down. intros HR.
      destruct (do_remove c fuel nx x k) as [[[[x' nx1] st1] old1]|] eqn:EP; [|discriminate].
      destruct (IH _ _ _ _ _ _ _ _ _ _ HX HB EP) as [R1 [R2 R3]].
      pose proof (set_child_slots es ed p u x q x' HE) as HS.
      destruct (set_child es ed (length p) x') as [es1 ed1].
      injection HR as <- <- <- <-.
      split; [|split].
      * cbn. rewrite HS. split; [destruct p; discriminate|].
        apply chain_app. exists m. split; [assumption|].
        cbn. split; [|auto]. destruct HB. eapply elt_ele_trans; eassumption.
      * rewrite !leaves_inner, HS, HE, !lvs_slot. now apply lgood_ctx.
      * rewrite !content_inner, HS, HE. destruct R3 as [R3 [R4 R5]].
        unfold remove_ok. rewrite (assoc_slot h lo m u hi) by assumption.
        split; [assumption|]. split; [assumption|].
        rewrite (del_slot h lo m u hi) by assumption.
        rewrite lvs_slot, !items_app. fold (content x'). rewrite R5. reflexivity. }
    destruct (merge_needed c x && (length p <? merge_end c es ed (length p)))%bool eqn:EM;
      [|exact (Hdown HR)].
    apply andb_prop in EM. destruct EM as [_ EM].
    destruct (merge_nodes c fuel nx es ed (length p) (merge_end c es ed (length p)))
      as [[[[es1 ed1] nx1]|]|] eqn:EG; [|exact (Hdown HR)|discriminate].
    clear Hdown down.
    pose proof (merge_end_le es ed (length p)).
    apply (merge_nodes_ok c Hok fuel h lo hi) in EG; [|assumption|lia].
    destruct EG as [S1 [S2 [S3 S4]]].
    destruct (IH (S h) lo hi (Inner id next es1 ed1) _ _ _ _ _ _ (conj S1 S2) HK HR)
      as [R1 [R2 R3]].
    split; [assumption|]. split.
    + eapply lgood_trans; [|exact R2]. rewrite !leaves_inner. exact S4.
    + rewrite content_inner in R3 |- *. rewrite S3 in R3. exact R3.
Qed.

Lemma tree_ok_edge : forall nx id next e, tree_ok nx (Inner id next [] (Some e)) ->
  tree_ok nx e /\ content e = content (Inner id next [] (Some e)).
Proof.
  intros nx id next e [[h HW] [HA [HN HF]]].
  destruct h as [|h]; [contradiction|]. cbn in HW. destruct HW as [_ [_ [HW _]]].
  split; [|reflexivity]. cbn [leaves flat_map app] in HA, HN, HF.
  split; [eauto|]. split; [assumption|]. split; assumption.
Qed.

Lemma remove_tree_ok : forall fuel t nx k t' nx' st old,
  tree_ok nx t -> remove c fuel nx t k = Ok (t', nx', st, old) ->
  tree_ok nx' t' /\ remove_ok k (content t) (content t') st old.
Proof.
  induction fuel as [|fuel IH]; intros t nx k t' nx' st old HT HR; [discriminate|].
  assert (Hgo : do_remove c fuel nx t k = Ok (t', nx', st, old) ->
    tree_ok nx' t' /\ remove_ok k (content t) (content t') st old).
  { intros HR'. pose proof HT as [[h HW] _].
    destruct (do_remove_ok _ _ _ _ _ _ _ _ _ _ _ HW (inb_top k) HR') as [H1 [H2 H3]].
    split; [|assumption]. eapply tree_ok_lgood; eauto. }
  cbn [remove] in HR. destruct t as [id next [|p es]|id next [|p es] [e|]].
  - injection HR as <- <- <- <-. split; [assumption|]. repeat split; reflexivity.
  - exact (Hgo HR).
  - destruct (tree_ok_edge _ _ _ _ HT) as [HT' HC'].
    destruct (c_merge c).
    + destruct (IH _ _ _ _ _ _ _ HT' HR) as [H1 H2]. rewrite HC' in H2. auto.
    + exact (IH _ _ _ _ _ _ _ HT HR).
  - discriminate.
  - exact (Hgo HR).
  - exact (Hgo HR).
Qed.

End WithCfg.
