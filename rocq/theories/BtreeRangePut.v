(** Range update: what a finished call has done. *)
From Coq Require Import ZArith NArith List Bool Lia Sorting.Sorted.
From Coq Require Import ZifyBool ZifyNat ZifyN.
From Verif Require Import Base BtNodeModel BtNodeSpec BtNodeProofs BtreeModel BtreeInv BtreePut
  BtreeMerge BtreeMerge2 BtreeRemove BtreeQueryModel BtreeQueryProofs BtreeRangeModel
  BtreeRangeProofs.
Import ListNotations.

(** ** One leaf *)

(** A filter that keeps or replaces. *)
Definition no_remove (f : pfilter) (v : N) : Prop :=
  match f with None => True | Some g => forall k v0, g k v0 v <> DRemove end.

Definition newv (f : pfilter) (v : N) (p : Z * N) : Z * N :=
  (fst p, match f with
          | None => v
          | Some g => match g (fst p) (snd p) v with DReplace => v | _ => snd p end
          end).

Definition updr (f : pfilter) (v : N) (r : krange) (p : Z * N) : Z * N :=
  if in_range r (fst p) then newv f v p else p.

Lemma updr_fst : forall f v r p, fst (updr f v r p) = fst p.
Proof. intros. unfold updr, newv. now destruct (in_range r (fst p)). Qed.

Lemma updr_keys : forall f v r l, map fst (map (updr f v r) l) = map fst l.
Proof. intros. rewrite map_map. apply map_ext. intros. apply updr_fst. Qed.

Lemma updr_out : forall f v r l, (forall y, In y l -> in_range r (fst y) = false) ->
  map (updr f v r) l = l.
Proof.
  intros f v r l H. rewrite <- (map_id l) at 2. apply map_ext_in. intros y Hy.
  unfold updr. now rewrite H.
Qed.
Lemma updr_in : forall f v r l, (forall y, In y l -> in_range r (fst y) = true) ->
  map (updr f v r) l = map (newv f v) l.
Proof. intros f v r l H. apply map_ext_in. intros y Hy. unfold updr. now rewrite H. Qed.
Lemma updr_same : forall f v r r' l,
  (forall y, In y l -> in_range r (fst y) = in_range r' (fst y)) ->
  map (updr f v r) l = map (updr f v r') l.
Proof. intros f v r r' l H. apply map_ext_in. intros y Hy. unfold updr. now rewrite H. Qed.

Lemma multi_put_loop_gen : forall m a b e fuel room v f, no_remove f v ->
  (length m < fuel)%nat -> (S e = length a + length m)%nat ->
  multi_put_loop fuel room (a ++ m ++ b) (length a) e v f
    = Some (StSuccess, None, a ++ map (newv f v) m ++ b) \/
  exists m1 k v0 m2, m = m1 ++ (k, v0) :: m2 /\
    multi_put_loop fuel room (a ++ m ++ b) (length a) e v f
    = Some (StMore, Some k, a ++ map (newv f v) m1 ++ (k, v0) :: m2 ++ b).
Proof.
  induction m as [|[k v0] m IH]; intros a b e fuel room v f HN HF HE;
    (destruct fuel as [|fuel]; [cbn in HF; lia|]); cbn [multi_put_loop].
  - left. cbn in HE. rewrite (proj2 (Nat.ltb_lt _ _)) by lia. reflexivity.
  - cbn [length] in *. rewrite (proj2 (Nat.ltb_ge _ _)) by lia. cbn [app].
    rewrite nth_len_app. destruct (room _ k); cbn [negb].
    2:{ right. exists [], k, v0, m. split; reflexivity. }
    assert (HG : forall p', newv f v (k, v0) = p' ->
      multi_put_loop fuel room (a ++ p' :: m ++ b) (S (length a)) e v f
        = Some (StSuccess, None, a ++ map (newv f v) ((k, v0) :: m) ++ b) \/
      exists m1 k1 v1 m2, (k, v0) :: m = m1 ++ (k1, v1) :: m2 /\
        multi_put_loop fuel room (a ++ p' :: m ++ b) (S (length a)) e v f
        = Some (StMore, Some k1, a ++ map (newv f v) m1 ++ (k1, v1) :: m2 ++ b)).
    { intros p' Hp. specialize (IH (a ++ [p']) b e fuel room v f HN ltac:(lia)).
      rewrite app_length in IH. cbn [length] in IH. specialize (IH ltac:(lia)).
      replace (length a + 1)%nat with (S (length a)) in IH by lia.
      rewrite <- !app_assoc in IH. cbn [app] in IH.
      destruct IH as [IH|[m1 [k1 [v1 [m2 [-> IH]]]]]].
      - left. rewrite IH. cbn [map app]. rewrite Hp. reflexivity.
      - right. exists ((k, v0) :: m1), k1, v1, m2. split; [reflexivity|].
        rewrite IH. cbn [map app]. rewrite Hp, <- app_assoc. reflexivity. }
    destruct f as [g|]; cbn [newv fst snd] in HG.
    + cbn [no_remove] in HN. specialize (HN k v0). unfold newv in HG. cbn [fst snd] in HG.
      destruct (g k v0 v); [|rewrite upd_at_app|congruence].
      * apply HG. reflexivity.
      * apply HG. reflexivity.
    + rewrite upd_at_app. apply HG. reflexivity.
Qed.

(** A leaf: nothing in the range, all done, or stopped before a key. *)
Lemma multi_put_gen : forall es r v room f, sorted es -> no_remove f v ->
  (multi_put room es r PUpdate v f = Some (StNotFound, None, es) /\
   forall y, In y es -> in_range r (fst y) = false) \/
  multi_put room es r PUpdate v f = Some (StSuccess, None, map (updr f v r) es) \/
  exists a m1 k v0 m2,
    es = a ++ m1 ++ (k, v0) :: m2 /\ in_range r k = true /\
    (forall y, In y a -> in_range r (fst y) = false) /\
    (forall y, In y m1 -> in_range r (fst y) = true) /\
    multi_put room es r PUpdate v f =
      Some (StMore, Some k, a ++ map (newv f v) m1 ++ (k, v0) :: m2).
Proof.
  intros es r v room f HS HN. unfold multi_put.
  destruct (match_leaf es r HS) as [[-> H]|[a [m [b [-> [Hm [Ha [HM [Hb ->]]]]]]]]].
  - left. split; [reflexivity|]. now apply Forall_forall.
  - right. rewrite Forall_forall in Ha, HM, Hb.
    assert (Hml : (0 < length m)%nat) by (destruct m; [congruence|cbn; lia]).
    destruct (multi_put_loop_gen m a b (length a + length m - 1)
      (S (S (length (a ++ m ++ b) + (length a + length m - 1)))) room v f HN) as [->|H].
    + rewrite !app_length. lia.
    + lia.
    + left. do 2 f_equal. rewrite !map_app, (updr_out _ _ _ a Ha), (updr_in _ _ _ m HM),
        (updr_out _ _ _ b Hb). reflexivity.
    + right. destruct H as [m1 [k [v0 [m2 [-> ->]]]]].
      exists a, m1, k, v0, (m2 ++ b). split; [now rewrite <- app_assoc|].
      split; [apply (HM (k, v0)); apply in_or_app; right; now left|].
      split; [assumption|]. split; [|reflexivity].
      intros y Hy. apply HM. apply in_or_app. now left.
Qed.

(** ** The tree *)

(** The keys stay and what is outside the range stays. *)
Definition only (r : krange) (p p' : Z * N) : Prop :=
  fst p' = fst p /\ (in_range r (fst p) = false -> p' = p).

Lemma only_refl : forall r l, Forall2 (only r) l l.
Proof. intros r l. induction l; constructor; [split; auto|assumption]. Qed.
Lemma only_upd : forall f v r l, Forall2 (only r) l (map (updr f v r) l).
Proof.
  intros f v r l. induction l as [|p l IH]; constructor; [|assumption].
  split; [apply updr_fst|]. intros H. unfold updr. now rewrite H.
Qed.
Lemma only_trans : forall r l l1 l2, Forall2 (only r) l l1 -> Forall2 (only r) l1 l2 ->
  Forall2 (only r) l l2.
Proof.
  intros r l l1 l2 H. revert l2. induction H as [|p p1 l l1 [H1 H2] H IH]; intros l3 HT;
    inversion HT as [|? p2 ? l2 [H3 H4] H5]; subst; constructor; auto.
  split; [congruence|]. intros HI. rewrite H4, H2; auto. now rewrite H1.
Qed.
Lemma only_weaken : forall r r' l l', (forall k, in_range r k = true -> in_range r' k = true) ->
  Forall2 (only r) l l' -> Forall2 (only r') l l'.
Proof.
  intros r r' l l' HI H. induction H as [|p p1 l l1 [H1 H2] H IH]; constructor; auto.
  split; [assumption|]. intros H3. apply H2. destruct (in_range r (fst p)) eqn:E; [|reflexivity].
  rewrite HI in H3; congruence.
Qed.

Lemma leaf_ok_keys : forall lo hi (l l' : list (Z * N)), map fst l' = map fst l ->
  leaf_ok lo hi l -> leaf_ok lo hi l'.
Proof.
  intros lo hi l l' HE [H1 H2]. split; [unfold sorted in *; now rewrite HE|].
  rewrite Forall_forall in *. intros p Hp. apply (in_map fst) in Hp. rewrite HE in Hp.
  apply in_map_iff in Hp. destruct Hp as [q [<- Hq]]. auto.
Qed.

Section Inp.
Variable inp : krange.
Variable c : cfg.
Variable f : pfilter.
Variable v : N.
Hypothesis HNR : no_remove f v.
Notation U w := (map (updr f v (full inp w))).

(** Where a put that has more to do left off. *)
Definition more_st (hi : ext) (w w' : wstate) : Prop :=
  open_st inp w' /\
  (forall k, in_range (full inp w') k = true -> in_range (full inp w) k = true) /\
  (forall k, elt hi (Fin k) -> in_range (full inp w') k = in_range (full inp w) k).

Definition outcome (hi : ext) (w w' : wstate) (st : status) (old want now : list (Z * N)) : Prop :=
  Forall2 (only (full inp w)) old now /\
  match st with
  | StSuccess => now = want /\ next_st inp hi w'
  | StMore => U w' now = want /\ more_st hi w w'
  | StNotFound => True
  | _ => False
  end.

Lemma more_out : forall w w' y, (forall k, in_range (full inp w') k = true -> in_range (full inp w) k = true) ->
  in_range (full inp w) y = false -> in_range (full inp w') y = false.
Proof.
  intros w w' y H H1. destruct (in_range (full inp w') y) eqn:E; [|reflexivity].
  rewrite H in H1; congruence.
Qed.

Lemma leaf_outcome : forall lo hi es w st last es' room,
  leaf_ok lo hi es -> fits inp 0 hi w -> ele (Fin (r_start (ws_r w))) hi ->
  multi_put room es (ws_r w) PUpdate v f = Some (st, last, es') ->
  leaf_ok lo hi es' /\
  outcome hi w
    match st, last with
    | StMore, Some k => shift_to inp w k
    | StSuccess, _ => shift inp w
    | _, _ => w
    end st es (U w es) es'.
Proof.
  intros lo hi es w st last es' room HL HF HS HR.
  pose proof (leaf_range inp lo hi es w HL HF) as HRa. pose proof (proj1 HL) as HSo.
  destruct (multi_put_gen es (ws_r w) v room f HSo HNR)
    as [[E H]|[E|[a [m1 [k [v0 [m2 [Hes [Hk [Ha [Hm1 E]]]]]]]]]]]; rewrite E in HR;
    injection HR as <- <- <-; clear E.
  - split; [assumption|]. split; [apply only_refl|exact I].
  - rewrite (updr_same f v (ws_r w) (full inp w) es HRa).
    split; [eapply leaf_ok_keys; [apply updr_keys|assumption]|].
    split; [apply only_upd|]. split; [reflexivity|]. now apply shift_next.
  - assert (Hkeys : map fst (a ++ map (newv f v) m1 ++ (k, v0) :: m2) = map fst es).
    { subst es. rewrite !map_app, map_map. reflexivity. }
    assert (HL' := leaf_ok_keys _ _ _ _ Hkeys HL).
    split; [assumption|].
    assert (Hin : In (k, v0) es) by (subst es; apply in_or_app; right; apply in_or_app; right; now left).
    assert (Hkf : in_range (full inp w) k = true) by exact (eq_trans (eq_sym (HRa _ Hin)) Hk).
    assert (Hkh : ele (Fin k) hi).
    { destruct HL as [_ HFl]. rewrite Forall_forall in HFl. exact (proj2 (HFl _ Hin)). }
    set (w' := shift_to inp w k).
    assert (Hw' : ws_trim w' = false /\ ws_r w' = full inp w' /\
                  r_start (full inp w') = k /\ r_sincl (full inp w') = true).
    { unfold w', shift_to, full. destruct HF as [[HO _]|[_ [HT _]]].
      - destruct HO as [HT [H1 [H2 _]]]. rewrite HT. cbn. rewrite H1, H2. auto.
      - rewrite HT. cbn. auto. }
    destruct Hw' as [W1 [W2 [W3 W4]]].
    assert (Hks : (r_start (ws_r w) <= k)%Z /\ hi_ok (full inp w) k = true).
    { rewrite in_range_ok in Hkf. apply andb_true_iff in Hkf. destruct Hkf as [H1 H2].
      split; [|assumption]. unfold lo_ok, full in H1. cbn in H1. destruct (r_sincl (ws_r w)); lia. }
    destruct Hks as [Hks Hke].
    assert (Hrng : forall y, (k <= y)%Z -> in_range (full inp w') y = in_range (full inp w) y).
    { intros y Hy. rewrite !in_range_ok. unfold lo_ok, hi_ok. rewrite W3, W4.
      change (r_eincl (full inp w')) with (r_eincl inp). change (r_end (full inp w')) with (r_end inp).
      change (r_eincl (full inp w)) with (r_eincl inp). change (r_end (full inp w)) with (r_end inp).
      f_equal. change (r_start (full inp w)) with (r_start (ws_r w)).
      change (r_sincl (full inp w)) with (r_sincl (ws_r w)).
      unfold in_range in Hkf. cbn in Hkf. destruct (r_sincl (ws_r w)); lia. }
    assert (Hlow : forall y, (y < k)%Z -> in_range (full inp w') y = false).
    { intros y Hy. apply below_out. lia. }
    assert (Hsub : forall y, in_range (full inp w') y = true -> in_range (full inp w) y = true).
    { intros y Hy. destruct (Z.lt_ge_cases y k) as [HL1|HL1]; [rewrite Hlow in Hy; congruence|].
      now rewrite <- Hrng. }
    assert (Ha' : forall y, In y a -> in_range (full inp w) (fst y) = false).
    { intros y Hy. rewrite <- HRa by (subst es; apply in_or_app; now left). auto. }
    assert (Hm1' : forall y, In y m1 -> in_range (full inp w) (fst y) = true).
    { intros y Hy. rewrite <- HRa; [auto|]. subst es. apply in_or_app. right. apply in_or_app. now left. }
    assert (Hord : forall y, In y (a ++ m1) -> (fst y < k)%Z).
    { rewrite Hes, app_assoc in HSo. apply sorted_parts in HSo. destruct HSo as [_ [_ HSo]].
      intros y Hy. apply (HSo y (k, v0) Hy). now left. }
    assert (Hord2 : forall y, In y ((k, v0) :: m2) -> (k <= fst y)%Z).
    { rewrite Hes, app_assoc in HSo. apply sorted_parts in HSo. destruct HSo as [_ [HSo _]].
      apply sorted_cons in HSo. destruct HSo as [HSo _]. unfold all_gt in HSo.
      rewrite Forall_forall in HSo. intros y [<-|Hy]; [cbn; lia|]. specialize (HSo y Hy). cbn in HSo. lia. }
    assert (Hop : open_st inp w').
    { split; [assumption|]. rewrite W2. split; [reflexivity|]. split; [reflexivity|].
      unfold valid. rewrite <- W2, W2, W3, W4.
      change (r_end (full inp w')) with (r_end inp).
      unfold hi_ok in Hke. change (r_eincl (full inp w)) with (r_eincl inp) in Hke.
      change (r_end (full inp w)) with (r_end inp) in Hke. destruct (r_eincl inp); [|left; lia].
      destruct (Z.eq_dec k (r_end inp)); [right; auto|left; lia]. }
    split; [|split].
    + rewrite Hes. apply Forall2_app; [apply only_refl|]. apply Forall2_app; [|apply only_refl].
      rewrite <- (updr_in _ _ (full inp w) m1 Hm1'). apply only_upd.
    + rewrite Hes, !map_app. rewrite (updr_out _ _ _ a Ha').
      rewrite (updr_out _ _ _ a) by (intros y Hy; apply Hlow, Hord, in_or_app; now left).
      rewrite (updr_in _ _ _ m1 Hm1').
      rewrite (updr_out _ _ _ (map (newv f v) m1)).
      2:{ intros y Hy. apply in_map_iff in Hy. destruct Hy as [z [<- Hz]]. cbn [newv fst].
          apply Hlow, Hord, in_or_app. now right. }
      do 2 f_equal. apply updr_same. intros y Hy. now apply Hrng, Hord2.
    + split; [assumption|]. split; [assumption|]. intros y Hy. apply Hrng.
      pose proof (ele_elt_trans _ _ _ Hkh Hy) as HX. cbn in HX. lia.
Qed.

Lemma do_rput_ok : forall fuel,
  (forall h lo hi t nx need w t' nx' w' st,
     wf h lo hi t -> fits inp h hi w -> ele (Fin (r_start (ws_r w))) hi ->
     elt lo (Fin (r_end inp)) ->
     do_rput c inp fuel nx t need w PUpdate v f None = Ok (t', nx', w', st) ->
     wf h lo hi t' /\ lgood nx (leaves t) nx' (leaves t') /\
     outcome hi w w' st (content t) (U w (content t)) (content t')) /\
  (forall h lo hi id next es ed nx need w e t' nx' w' st p m q a b,
     slots es ed = p ++ m ++ q -> slots es ed <> [] ->
     (m <> [] -> e = length p + length m - 1)%nat -> (m = [] -> e < length p)%nat ->
     chain (wf h) lo a p -> chain (vis h (r_end inp)) a b m -> chain (wf h) b hi q ->
     (q <> [] -> ele (Fin (r_end inp)) b) ->
     (m = [] -> next_st inp b w) ->
     (m <> [] -> open_st inp w /\
        (forall y, In y (items (lvs p)) -> in_range (full inp w) (fst y) = false) /\
        match m with (u, _) :: _ => ele (Fin (r_start (ws_r w))) u | [] => True end) ->
     do_rput c inp fuel nx (Inner id next es ed) need w PUpdate v f
       (Some (length p, e, StSuccess)) = Ok (t', nx', w', st) ->
     wf (S h) lo hi t' /\ lgood nx (lvs (slots es ed)) nx' (leaves t') /\
     outcome hi w w' st (items (lvs (slots es ed)))
       (items (lvs p) ++ U w (items (lvs m)) ++ items (lvs q)) (content t')).
Proof.
  induction fuel as [|fuel [IHA IHB]]; [split; intros; discriminate|]. split.
  - intros h lo hi t nx need w t' nx' w' st HW HFi HS HL HR.
    destruct h as [|h], t as [id next es|id next es ed]; cbn [wf] in HW; try contradiction;
      cbn [do_rput] in HR.
    + destruct (multi_put (room_for c PUpdate v) es (ws_r w) PUpdate v f)
        as [[[st0 last] es']|] eqn:EM; [|discriminate].
      destruct (_ && _)%bool; [discriminate|]. injection HR as <- <- <- <-.
      destruct (leaf_outcome lo hi es w st0 last es' _ HW HFi HS EM) as [H1 H2].
      assert (HC : forall l, content (Leaf id next l) = l)
        by (intros; unfold content, items; cbn; apply app_nil_r).
      split; [exact H1|]. split; [|rewrite !HC; exact H2].
      cbn [leaves]. apply lgood_same; [lia| |reflexivity]. cbn. auto.
    + destruct HW as [HN HC].
      destruct HFi as [[HO _]|[HH _]]; [|discriminate]. pose proof HO as [HT [HE1 [HE2 HV]]].
      rewrite (open_match inp w HO) in HR.
      destruct (inner_match h es ed lo hi (full inp w) HC HN HS HL HV)
        as [[HM _]|[p [m [q [a [b [HQ [Hm [HM [HP [HVi [HCq [Hout [Hfst Hq]]]]]]]]]]]]]];
        rewrite HM in HR; [discriminate|].
      assert (HB := IHB h lo hi id next es ed nx need w _ t' nx' w' st p m q a b
        HQ HN (fun _ => eq_refl) (fun E => False_ind _ (Hm E)) HP HVi HCq Hq
        (fun E => False_ind _ (Hm E)) (fun _ => conj HO (conj Hout Hfst)) HR).
      destruct HB as [B1 [B2 B3]].
      split; [assumption|]. split; [rewrite leaves_inner; assumption|].
      rewrite content_inner. replace (U w (items (lvs (slots es ed)))) with
        (items (lvs p) ++ U w (items (lvs m)) ++ items (lvs q)); [exact B3|].
      rewrite HQ, !lvs_app, !items_app, !map_app.
      rewrite (updr_out f v _ (items (lvs p)) Hout).
      rewrite (updr_out f v _ (items (lvs q))); [reflexivity|].
      intros y Hy. destruct (parts_out inp h w false q b hi Hq HCq y Hy); congruence.
  - intros h lo hi id next es ed nx need w e t' nx' w' st p m q a b
      HQ HN He1 He2 HP HVi HCq Hq Hm0 Hm1 HR.
    cbn [do_rput] in HR. destruct m as [|[u x] m].
    + rewrite (proj2 (Nat.ltb_lt _ _)) in HR by auto. injection HR as <- <- <- <-.
      cbn in HVi. subst b.
      split; [|split; [|split]].
      * cbn. split; [assumption|]. rewrite HQ. cbn [app]. apply chain_app. eauto.
      * rewrite leaves_inner. apply lgood_refl. lia.
      * rewrite content_inner. apply only_refl.
      * split; [rewrite content_inner, HQ; cbn [app]; rewrite lvs_app, items_app; reflexivity|].
        intros u0 E HU. destruct q as [|z q]; [cbn in HCq; subst a; exact (Hm0 eq_refl u0 E HU)|].
        exfalso. specialize (Hq ltac:(discriminate)).
        pose proof (chain_le _ _ _ _ HCq) as HLe. rewrite E in HLe.
        pose proof (ele_trans _ _ _ Hq HLe) as HX. apply fin_le in HX. lia.
    + specialize (He1 ltac:(discriminate)). cbn [length] in He1.
      rewrite (proj2 (Nat.ltb_ge _ _)) in HR by lia.
      destruct (Hm1 ltac:(discriminate)) as [HO [Hout Hfst]]. clear Hm0 Hm1 He2.
      cbn [app] in HQ. rewrite (child_at_slot _ _ _ _ _ _ HQ) in HR.
      cbn in HVi. destruct HVi as [V1 [[V2 V3] V4]].
      assert (Hqo : forall y, In y (items (lvs q)) -> in_range (full inp w) (fst y) = false).
      { intros y Hy. destruct (parts_out inp h w false q b hi Hq HCq y Hy); congruence. }
      assert (HI : items (lvs (slots es ed)) =
        items (lvs p) ++ content x ++ items (lvs m) ++ items (lvs q)).
      { rewrite HQ, lvs_slot, lvs_app, !items_app. reflexivity. }
      destruct (rsplit_needed c need w x).
      * destruct (split_node c nx es ed (length p) x) as [[[es1 ed1] nx1]|] eqn:EG; [|discriminate].
        assert (HCq' : chain (wf h) u hi (m ++ q)).
        { apply chain_app. exists b. split; [|assumption]. eapply chain_vis_wf; eassumption. }
        destruct (split_node_ok _ _ _ _ _ _ _ _ _ _ _ _ _ _ _ HQ HP V2 HCq' EG)
          as [S1 [S2 [S3 S4]]].
        assert (Hule : ele u hi) by (eapply chain_le; exact HCq').
        assert (Hfit : fits inp (S h) hi w) by (left; split; [assumption|discriminate]).
        assert (Hst : ele (Fin (r_start (ws_r w))) hi) by (eapply ele_trans; eassumption).
        assert (Hlo : elt lo (Fin (r_end inp)))
          by (eapply ele_elt_trans; [eapply chain_le; exact HP|exact V3]).
        pose proof (IHA (S h) lo hi (Inner id next es1 ed1) nx1 need w t' nx' w' st (conj S1 S2)
          Hfit Hst Hlo HR) as [A1 [A2 A3]].
        rewrite leaves_inner in A2. rewrite content_inner, S3 in A3.
        split; [assumption|]. split; [eapply lgood_trans; eassumption|].
        replace (U w (items (lvs (slots es ed)))) with
          (items (lvs p) ++ U w (items (lvs ((u, x) :: m))) ++ items (lvs q)) in A3; [exact A3|].
        rewrite HI, !map_app. change (lvs ((u, x) :: m)) with (leaves x ++ lvs m).
        rewrite items_app, map_app, <- app_assoc. fold (content x).
        rewrite (updr_out f v _ (items (lvs p)) Hout), (updr_out f v _ (items (lvs q)) Hqo).
        reflexivity.
      * destruct (do_rput c inp fuel nx x need (subrange es (length p) x w) PUpdate v f None)
          as [[[[x' nx1] w1] st1]|] eqn:EP; [|discriminate].
        assert (Hst : r_start (ws_r (subrange es (length p) x w)) = r_start (ws_r w)).
        { change (r_start (full inp (subrange es (length p) x w)) = r_start (full inp w)).
          now rewrite full_sub. }
        assert (Hst' : ele (Fin (r_start (ws_r (subrange es (length p) x w)))) u)
          by (rewrite Hst; exact Hfst).
        pose proof (IHA h a u x nx need (subrange es (length p) x w) x' nx1 w1 st1 V2
          (sub_fits _ _ _ _ _ _ _ _ _ _ HQ V2 HO) Hst' V3 EP) as [A1 [A2 A3]].
        unfold outcome, more_st in A3. rewrite full_sub in A3.
        pose proof (set_child_slots es ed p u x (m ++ q) x' HQ) as HSl.
        destruct (set_child es ed (length p) x') as [es1 ed1].
        assert (HSl' : slots es1 ed1 = (p ++ [(u, x')]) ++ m ++ q)
          by (rewrite <- app_assoc; exact HSl).
        assert (HLg : lgood nx (lvs (slots es ed)) nx1 (lvs (slots es1 ed1)))
          by (rewrite HQ, HSl, !lvs_slot; now apply lgood_ctx).
        assert (HW1 : wf (S h) lo hi (Inner id next es1 ed1)).
        { cbn. rewrite HSl. split; [destruct p; discriminate|]. apply chain_app. exists a.
          split; [assumption|]. cbn. split; [assumption|]. split; [assumption|].
          apply chain_app. exists b. split; [|assumption]. eapply chain_vis_wf; eassumption. }
        assert (HI1 : items (lvs (slots es1 ed1)) =
          items (lvs p) ++ content x' ++ items (lvs m) ++ items (lvs q)).
        { rewrite HSl, lvs_slot, lvs_app, !items_app. reflexivity. }
        destruct A3 as [O1 A3].
        assert (HO1 : Forall2 (only (full inp w)) (items (lvs (slots es ed))) (items (lvs (slots es1 ed1)))).
        { rewrite HI, HI1. apply Forall2_app; [apply only_refl|].
          apply Forall2_app; [assumption|apply only_refl]. }
        assert (HWant : items (lvs ((u, x) :: m)) = content x ++ items (lvs m)).
        { change (lvs ((u, x) :: m)) with (leaves x ++ lvs m). now rewrite items_app. }
        destruct st1; try contradiction.
        -- assert (Hlp : S (length p) = length (p ++ [(u, x')])) by (rewrite app_length; cbn; lia).
           rewrite Hlp in HR. destruct A3 as [A3 A5].
           assert (Hu : m <> [] -> exists z, u = Fin z /\ (z < r_end inp)%Z).
           { intros Hm. destruct m as [|[u2 x2] m]; [congruence|]. cbn in V4.
             destruct V4 as [_ [[_ V5] _]]. eapply fin_of; eassumption. }
           pose proof (IHB h lo hi id next es1 ed1 nx1 need w1 e t' nx' w' st
             (p ++ [(u, x')]) m q u b HSl') as HB.
           destruct HB as [B1 [B2 [B3 B4]]].
           ++ rewrite HSl'. destruct p; discriminate.
           ++ intros Hm. rewrite app_length. cbn [length]. lia.
           ++ intros ->. rewrite app_length. cbn [length] in *. lia.
           ++ apply chain_app. exists a. split; [assumption|]. cbn. auto.
           ++ assumption.
           ++ assumption.
           ++ assumption.
           ++ intros ->. cbn in V4. subst b. exact A5.
           ++ intros Hm. destruct (Hu Hm) as [z [-> Hz]]. pose proof (A5 z eq_refl Hz) as HD.
              split; [eapply done_open; eassumption|]. split.
              ** intros y Hy. eapply done_out; [exact HD|].
                 rewrite lvs_app, items_app in Hy. apply in_app_or in Hy. destruct Hy as [Hy|Hy].
                 --- destruct (chain_items_in _ _ _ _ _ HP Hy) as [_ Y2].
                     apply fin_le. eapply ele_trans; [exact Y2|now left].
                 --- cbn [lvs flat_map snd] in Hy. rewrite app_nil_r in Hy. fold (content x') in Hy.
                     destruct (wf_content _ _ _ _ A1) as [_ HF]. rewrite Forall_forall in HF.
                     apply fin_le. now apply HF.
              ** destruct m as [|[u2 x2] m]; [exact I|]. cbn in V4. destruct V4 as [V5 _].
                 destruct HD as [_ [_ [_ [-> _]]]]. now left.
           ++ exact HR.
           ++ split; [assumption|]. split; [eapply lgood_trans; eassumption|].
              rewrite lvs_app, items_app in B4. cbn [lvs flat_map snd] in B4. rewrite app_nil_r in B4.
              fold (content x') in B4. rewrite A3, <- app_assoc in B4.
              assert (Hcase : m = [] \/ exists z, u = Fin z /\ (z < r_end inp)%Z /\ done_to inp w1 z).
              { destruct m as [|z0 m0] eqn:Em; [now left|right]. rewrite <- Em in *.
                destruct (Hu ltac:(subst m; discriminate)) as [z [-> Hz]]. eauto. }
              assert (Hsame : U w1 (items (lvs m)) = U w (items (lvs m))).
              { destruct Hcase as [->|[z [Ez [Hz HD]]]]; [reflexivity|]. subst u.
                apply updr_same. intros y Hy. apply done_same with (u := z); [assumption|now apply fin_le|].
                destruct (chain_items_in _ _ _ _ _ (chain_vis_wf _ _ _ _ _ V4) Hy) as [Y1 _]. exact Y1. }
              rewrite Hsame in B4.
              assert (HE : items (lvs p) ++ U w (items (lvs ((u, x) :: m))) ++ items (lvs q) =
                           items (lvs p) ++ U w (content x) ++ U w (items (lvs m)) ++ items (lvs q)).
              { rewrite HWant, map_app, <- !app_assoc. reflexivity. }
              rewrite HE.
              assert (Hsub : m <> [] -> forall k, in_range (full inp w1) k = true -> in_range (full inp w) k = true).
              { intros Hm k Hk. destruct Hcase as [->|[z [Ez [Hz HD]]]]; [congruence|].
                destruct (Z.lt_ge_cases z k) as [Hzk|Hzk].
                - rewrite <- Hk. symmetry. eapply done_same; [exact HD| |exact Hzk].
                  subst u. now apply fin_le.
                - rewrite (done_out inp w1 z k HD Hzk) in Hk. discriminate. }
              split.
              ** destruct m as [|z0 m0] eqn:Em.
                 { (* nothing left: the tail call returns at once *)
                   eapply only_trans; [exact HO1|].
                   destruct fuel as [|fuel']; [discriminate|]. cbn [do_rput] in HR.
                   rewrite (proj2 (Nat.ltb_lt _ _)) in HR by (rewrite app_length; cbn [length] in *; lia).
                   injection HR as <- <- <- <-. rewrite content_inner. apply only_refl. }
                 rewrite <- Em in *. eapply only_trans; [exact HO1|].
                 eapply only_weaken; [|exact B3]. apply Hsub. subst m; discriminate.
              ** destruct st; try contradiction; try exact I.
                 --- exact B4.
                 --- destruct B4 as [B4 B6]. split; [exact B4|].
                     destruct m as [|z0 m0] eqn:Em.
                     { exfalso. destruct fuel as [|fuel']; [discriminate|]. cbn [do_rput] in HR.
                       rewrite (proj2 (Nat.ltb_lt _ _)) in HR by (rewrite app_length; cbn [length] in *; lia).
                       discriminate. }
                     rewrite <- Em in *. destruct B6 as [C1 [C2 C3]]. split; [assumption|].
                     split; [intros k Hk; apply Hsub; [subst m; discriminate|auto]|].
                     intros k Hk. rewrite C3 by assumption.
                     destruct Hcase as [->|[z [Ez [Hz HD]]]]; [discriminate|].
                     eapply done_same; [exact HD|subst u; now apply fin_le|].
                     assert (Hbh : ele (Fin z) hi).
                     { rewrite <- Ez. eapply ele_trans; [eapply chain_le; exact V4|eapply chain_le; exact HCq]. }
                     exact (ele_elt_trans _ _ _ Hbh Hk).
        -- injection HR as <- <- <- <-. split; [assumption|].
           split; [rewrite leaves_inner; assumption|]. split; [|exact I].
           rewrite content_inner. exact HO1.
        -- injection HR as <- <- <- <-. split; [assumption|].
           split; [rewrite leaves_inner; assumption|]. destruct A3 as [A3 [C1 [C2 C3]]].
           split; [rewrite content_inner; exact HO1|].
           split.
           ++ rewrite content_inner, HI1, HWant, !map_app, A3, <- !app_assoc.
              rewrite (updr_out f v _ (items (lvs p)))
                by (intros y Hy; eapply more_out; [exact C2|now apply Hout]).
              rewrite (updr_out f v _ (items (lvs q)))
                by (intros y Hy; eapply more_out; [exact C2|now apply Hqo]).
              do 3 f_equal. apply updr_same. intros y Hy. apply C3.
              exact (proj1 (chain_items_in _ _ _ _ _ (chain_vis_wf _ _ _ _ _ V4) Hy)).
           ++ split; [assumption|]. split; [assumption|]. intros k Hk. apply C3.
              eapply ele_elt_trans; [|exact Hk].
              eapply ele_trans; [eapply chain_le; exact V4|eapply chain_le; exact HCq].
Qed.

End Inp.
